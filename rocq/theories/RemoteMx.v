(** Two stages of least squares, as matrices. *)
From Coq Require Import Reals Lra.
From Coquelicot Require Import Complex.
From mathcomp Require Import all_ssreflect all_algebra.
From Verif Require Import WlseModel WlseProofs CField.
Set Implicit Arguments.
Unset Strict Implicit.
Unset Printing Implicit Defensive.
Import GRing.Theory.
Local Open Scope ring_scope.

Local Notation H := (herm cjC).

Lemma re_square (x : C) : Re (cjC x * x) = Rplus (Rmult (fst x) (fst x)) (Rmult (snd x) (snd x)).
Proof. case: x => a b; rewrite /GRing.mul /= /Re /=; ring. Qed.
Lemma re_add (x y : C) : Re (x + y) = Rplus (Re x) (Re y).
Proof. by []. Qed.
Lemma squares_ge0 n (x : 'I_n -> C) : Rle R0 (Re (\sum_i cjC (x i) * x i)).
Proof.
elim: n x => [|n IH] x; first by rewrite big_ord0; exact: Rle_refl.
rewrite big_ord_recl re_add re_square; have := IH (fun i => x (lift ord0 i)); move: (Re (\sum_i _)) (fst _) (snd _) => s u v Hs; nra.
Qed.
Lemma squares_eq0 n (x : 'I_n -> C) : \sum_i cjC (x i) * x i = 0 -> forall i, x i = 0.
Proof.
elim: n x => [|n IH] x; first by move=> _ [].
rewrite big_ord_recl => E.
have := f_equal Re E; rewrite re_add re_square => E'; have G := squares_ge0 (fun i => x (lift ord0 i)).
have X0 : x ord0 = 0.
  rewrite [x ord0]surjective_pairing; have : Re 0 = R0 by []. move=> R0'; rewrite R0' in E'.
  move: (Re (\sum_i _)) (fst (x ord0)) (snd (x ord0)) E' G => s u v E' G; apply: injective_projections => /=; nra.
have E2 : \sum_(i < n) cjC (x (lift ord0 i)) * x (lift ord0 i) = 0 by rewrite -[RHS]E X0 mulr0 add0r.
move=> i; case: (unliftP ord0 i) => [j|] -> //; exact: (IH (fun i => x (lift ord0 i)) E2).
Qed.

Lemma herm_pos n (x : 'cV[C]_n) : H x *m x = 0 -> x = 0.
Proof.
move=> E; have : (H x *m x) 0 0 = 0 by rewrite E mxE.
rewrite mxE => S; apply/colP => i; rewrite mxE.
have {}S : \sum_i cjC (x i 0) * x i 0 = 0 by rewrite -[RHS]S; apply: eq_bigr => j _; rewrite !mxE.
exact: (squares_eq0 S).
Qed.

Lemma unit_inj q (A : 'M[C]_q) : (forall v : 'cV_q, A *m v = 0 -> v = 0) -> A \in unitmx.
Proof.
move=> I; rewrite -unitmx_tr -row_free_unit -kermx_eq0; apply/eqP/row_matrixP => i; rewrite row0.
have : row i (kermx A^T) *m A^T = 0 by rewrite -row_mul mulmx_ker row0.
move/(congr1 trmx); rewrite trmx_mul trmxK trmx0 => /I /(congr1 trmx); by rewrite trmxK trmx0.
Qed.

Lemma gram_kernel n q (Y : 'M[C]_(n, q)) (v : 'cV_q) : H Y *m Y *m v = 0 -> Y *m v = 0.
Proof. by move=> E; apply: herm_pos; rewrite herm_mul -mulmxA (mulmxA (H Y)) E mulmx0. Qed.
Lemma gram_unit_inj n q (Y : 'M[C]_(n, q)) : (forall v : 'cV_q, Y *m v = 0 -> v = 0) -> H Y *m Y \in unitmx.
Proof. by move=> I; apply: unit_inj => v /gram_kernel; exact: I. Qed.

Section Stages.
Variables (n m p : nat) (Br : 'M[C]_(n, m)) (B : 'M[C]_(n, p)).
Hypotheses (Ir : forall v : 'cV_m, Br *m v = 0 -> v = 0) (Is : forall v : 'cV_p, H Br *m (B *m v) = 0 -> v = 0).
Definition Tm : 'M[C]_(m, p) := invmx (H Br *m Br) *m (H Br *m B).
Definition Be : 'M[C]_(n, p) := Br *m Tm.

Lemma remote_unit : H Br *m Br \in unitmx.
Proof. exact: gram_unit_inj. Qed.
Lemma stage_normal : H Br *m Be = H Br *m B.
Proof. by rewrite /Be mulmxA /Tm mulmxA mulmxV ?mul1mx // remote_unit. Qed.
Lemma stage_unit : H Be *m Be \in unitmx.
Proof. by apply: gram_unit_inj => v E; apply: Is; rewrite mulmxA -stage_normal -mulmxA E mulmx0. Qed.
Lemma stage_solution (e : 'cV[C]_n) (z : 'cV_p) : H Br *m (e - B *m z) = 0 -> H Be *m Be *m z = H Be *m e.
Proof.
rewrite mulmxBr => /eqP; rewrite subr_eq0 => /eqP E.
have HB : H Be = H Tm *m H Br by rewrite /Be herm_mul.
move: stage_normal HB; move: Be => BE SN HB; rewrite HB -!mulmxA; congr (_ *m _); rewrite mulmxA SN -mulmxA; exact: esym.
Qed.
End Stages.
