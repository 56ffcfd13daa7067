(** Model of the Slepian window, src/razorback/fourier_transform.py:16-21 and
    111-132, in exact rational arithmetic. The values of scipy's
    [signal.windows.dpss(N, tau)] are a parameter [dpss N]. Simplification: a
    window with mean 0 (division by zero) is not treated specially. *)
From Coq Require Import QArith Qcanon.
From Verif Require Import Base Arith.
Open Scope nat_scope.

(** a natural number as a rational *)
Definition nq (n : nat) : Qc := ZtoQc (Z.of_nat n).
Definition qsum (l : list Qc) : Qc := fold_right Qcplus (Q2Qc 0) l.
Definition qmean (l : list Qc) : Qc := (qsum l / nq (length l))%Qc.

(** numpy's [interp] at [x], inside or to the right of the points: [(p, v)] is
    the last point seen *)
Fixpoint interp_from (x : Qc) (p v : Qc) (rest : list (Qc * Qc)) : Qc :=
  match rest with
  | [] => v
  | (p', v') :: rest' => if Qcltb x p' then ((v' - v) / (p' - p) * (x - p) + v)%Qc else interp_from x p' v' rest'
  end.
(** [np.interp(x, xp, fp)] for one [x]: constant outside of the points *)
Definition np_interp (x : Qc) (xp fp : list Qc) : res Qc :=
  _ <- check (length xp =? length fp) ValueError ;;
  match combine xp fp with
  | [] => Err ValueError
  | (p, v) :: rest => Ok (if Qcltb x p then v else interp_from x p v rest)
  end.

Section Slepian.
Variable dpss : nat -> list Qc.

(** fourier_transform.py:124-126 *)
Definition slepian_direct (N : nat) : list Qc := let r := dpss N in map (fun v => (v / qmean r)%Qc) r.

(** fourier_transform.py:128, 130-131 *)
Definition slepian_interp (N M : nat) (ref : list Qc) : res (list Qc) :=
  _ <- check (negb (M =? 0)) ZeroDivisionError ;;
  let a := (nq N / nq M)%Qc in
  mapM (fun n => np_interp (nq n) (map (fun k => (a * nq k)%Qc) (seq 0 M)) ref) (seq 0 N).

(** fourier_transform.py:111-132 [slepian(N, tau, N_MAX)]; the recursive call
    uses the default limit, so that it may interpolate once more *)
Definition slepian_default (N : nat) : res (list Qc) :=
  if N <=? 1000 then Ok (slepian_direct N) else slepian_interp N 1000 (slepian_direct 1000).
Definition slepian (N N_MAX : nat) : res (list Qc) :=
  if N <=? N_MAX then Ok (slepian_direct N)
  else ref <- slepian_default N_MAX ;; slepian_interp N N_MAX ref.

(** fourier_transform.py:16-21 [slepian_window] *)
Definition slepian_window (N : nat) : res (list Qc) := slepian_default N.
End Slepian.
