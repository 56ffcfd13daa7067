(** As many polarisations as inputs need as many runs. *)
From Coq Require Import Reals.
From Coquelicot Require Import Complex.
From mathcomp Require Import all_ssreflect all_algebra.
From Verif Require Import WlseModel WlseProofs CField RemoteMx SpecRemote WholeImpedance WholeRemote.
Set Implicit Arguments.
Unset Strict Implicit.
Unset Printing Implicit Defensive.
Import GRing.Theory.
Local Open Scope ring_scope.

Lemma independent_le n p (F : nat -> nat -> C) :
  (forall v, (forall r, (r < n)%coq_nat -> csum p (fun j => Cmult (v j) (F r j)) = RtoC 0) -> forall j, (j < p)%coq_nat -> v j = RtoC 0) -> (p <= n)%coq_nat.
Proof.
move=> I; apply/leP.
pose Y : 'M[C]_(n, p) := \matrix_(r, j) F r j.
have U : herm cjC Y *m Y \in unitmx.
  apply: gram_unit_inj => v Ev; apply/matrixP => j k; rewrite [RHS]mxE ord1.
  pose w i := if insub i : option 'I_p is Some i then v i 0 else 0.
  have Ew (i : 'I_p) : w i = v i 0 by rewrite /w valK.
  rewrite -Ew; apply: I; last by apply/ltP.
  move=> r /ltP Hr; rewrite csum_big; transitivity ((Y *m v) (Ordinal Hr) 0); last by rewrite Ev mxE.
  by rewrite mxE; apply: eq_bigr => i _; rewrite Ew mxE; exact: (mulrC (v i 0) (F r i)).
rewrite -(mxrank_unit U); exact: leq_trans (mxrankM_maxr _ _) (rank_leq_row _).
Qed.
