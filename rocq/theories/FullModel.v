(** The estimation with nothing left open: the kernels of MestModel.v and BiModel.v
    over the complex numbers, in exact arithmetic, for [q] inputs.
    src/razorback/mestimator.py:232-243, 265-305 and weights.py:115-117. *)
From Coq Require Import Reals.
From Coquelicot Require Import Complex.
From mathcomp Require Import all_ssreflect all_algebra.
From Verif Require Import WlseModel CField.
From Verif Require Import Base Arith MestModel WeightModel RobustModel BiModel.
Set Implicit Arguments.
Unset Strict Implicit.
Unset Printing Implicit Defensive.
Local Open Scope ring_scope.

(** weights as complex numbers: scipy's [solve] refuses nan and infinities *)
Definition weight_c (w : ext) : res C := match w with Fin x => Ok (RtoC x) | _ => Err ValueError end.
Definition weights_c (w : option (list ext)) : res (option (list C)) :=
  match w with None => Ok None | Some w => bind (mapM weight_c w) (fun l => Ok (Some l)) end.

Section Full.
Variable q : nat.

(** mestimator.py:284-305 [wlse] *)
Definition full_wlse (e : list C) (b : list 'rV[C]_q) (w : option (list ext)) : res 'cV[C]_q :=
  bind (weights_c w) (fun w => of_option LinAlgError (wlse_rows cjC e b w)).

(** mestimator.py:233 [e - b.dot(z)] *)
Definition full_resid (e : list C) (b : list 'rV[C]_q) (z : 'cV[C]_q) : list (option C) :=
  List.map (fun p => Some (fst p - (snd p *m z) 0 0)) (combine e b).

(** mestimator.py:236-237: [abs(H(residual).dot(dotdiag(weight, residual)))]. It is
    computed after a solution with the same weights, so they are finite, and from a
    new residual, which has no nan; the other cases count as 0 here *)
Definition square (r : option C) : R := match r with Some z => Rmult (Cmod z) (Cmod z) | None => R0 end.
Definition weight_r (w : ext) : R := match w with Fin x => x | _ => R0 end.
Definition weights_r (n : nat) (w : option (list ext)) : list R :=
  match w with
  | None => repeat R1 n
  | Some [x] => repeat (weight_r x) n
  | Some w => List.map weight_r w
  end.
Definition full_wres (r : list (option C)) (w : option (list ext)) : R :=
  Rabs (fold_right Rplus R0 (List.map (fun p => Rmult (fst p) (square (snd p))) (combine (weights_r (List.length r) w) r))).

(** weights.py:116-117: [np.sum(linalg.solve(A, H(b)) * b.T, axis=0).real] *)
Definition full_quad (b : list 'rV[C]_q) (w : option (list ext)) : res (list ext) :=
  let n := size b in
  bind (check (match w with None => true | Some w => (size w == n) || (size w == 1%N) end) ValueError) (fun _ =>
  bind (weights_c w) (fun w =>
  let y := rows n b in
  let A := normal cjC y (weights n w) in
  if A \in unitmx then Ok [seq Fin (Re (\sum_j (invmx A *m herm cjC y) j i * y^T j i)) | i <- fintype.enum 'I_n]
  else Err LinAlgError)).

Definition fullK : Kern := realK C 'rV[C]_q 'cV[C]_q full_wlse full_resid full_wres.
Definition fullW : WK fullK := realW C 'rV[C]_q 'cV[C]_q full_wlse full_resid full_wres full_quad (fun _ => q).
End Full.
