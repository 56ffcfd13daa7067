(** Vocabulary for the errors reported with an estimate: they are computed from the
    coefficients and from the other results. *)
From Coq Require Import Reals.
From Coquelicot Require Import Complex.
From Verif Require Import Base BaseLemmas RobustModel SpecRemote.
Open Scope nat_scope.

Definition rsum (n : nat) (f : nat -> R) : R := fold_right Rplus 0%R (map f (seq 0 n)).

(** a number, not an infinity and not nan *)
Definition finite (v : ext) : Prop := exists r, v = Fin r.

Section Reported.
(** coefficients of [n] windows; electric, magnetic and remote channels; the reported
    transfer functions [z] and, with remote channels, [T] *)
Variables (coeffs : list (list C)) (n : nat) (es bs rs : list nat) (z : list (list C)) (T : option (list (list C))).
(** input number [j] of the last stage: the magnetic channel, or its prediction from
    the remote channels *)
Definition input (j t : nat) : C :=
  match T with
  | None => channel coeffs bs j t
  | Some T => combination coeffs (fun k => nth k (nth j T []) (RtoC 0)) rs t
  end.
(** what the transfer functions leave of output [i] in window [t] *)
Definition misfit (i t : nat) : C :=
  Cminus (channel coeffs es i t) (csum (length bs) (fun j => Cmult (nth j (nth i z []) (RtoC 0)) (input j t))).
Definition total_misfit (i : nat) : R := sqrt (rsum n (fun t => (Cmod (misfit i t) ^ 2)%R)).
Definition cross (i j : nat) : C := csum n (fun t => Cmult (input i t) (Cconj (input j t))).
(** [g] is the inverse of the matrix of cross products of the inputs *)
Definition inverse (g : nat -> nat -> C) : Prop :=
  forall i j, i < length bs -> j < length bs -> csum (length bs) (fun k => Cmult (g i k) (cross k j)) = RtoC (if i =? j then 1 else 0).
(** the error of the transfer function from input [j] to output [i] when [k] windows
    are rejected: one of n - p degrees of freedom, scaled by n / (n - k) *)
Definition error_of (g : nat -> nat -> C) (k i j : nat) : R :=
  (total_misfit i / sqrt (INR (n - length bs)) * (INR n / INR (n - k)) * sqrt (Cmod (g j j)))%R.
End Reported.
