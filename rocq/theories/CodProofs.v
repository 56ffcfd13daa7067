(** Lemmas about the coefficient of determination. *)
From mathcomp Require Import all_ssreflect all_fingroup all_algebra.
From Verif Require Import WlseModel WlseProofs ErrModel ErrProofs CodModel.
Set Implicit Arguments.
Unset Strict Implicit.
Unset Printing Implicit Defensive.
Import Order.POrderTheory GRing.Theory Num.Theory.
Local Open Scope ring_scope.

Section Cod.
Variable C : numClosedFieldType.
Notation cj := (@conjC C).
Notation wlse := (wlse cj). Notation rhs := (rhs cj). Notation normal := (normal cj).

Lemma norm2_ge0 n (x : 'cV[C]_n) : 0 <= norm2 x.
Proof. by apply: sumr_ge0 => i _; rewrite exprn_ge0. Qed.

Lemma norm2_eq0 n (x : 'cV[C]_n) : (norm2 x == 0) = (x == 0).
Proof.
apply/eqP/eqP => [E|->]; last by rewrite /norm2 big1 // => i _; rewrite mxE normr0 expr0n.
have P j : true -> 0 <= `|x j 0| ^+ 2 by move=> _; rewrite exprn_ge0.
apply/colP => i; have Q : `|x i 0| ^+ 2 = 0 by apply: (psumr_eq0P P E).
move/eqP: Q.
by rewrite expf_eq0 /= normr_eq0 mxE => /eqP.
Qed.

Lemma norm2_opp n (x : 'cV[C]_n) : norm2 (- x) = norm2 x.
Proof. by apply: eq_bigr => i _; rewrite mxE normrN. Qed.

Lemma norm2_scale n (x : 'cV[C]_n) c : norm2 (c *: x) = `|c| ^+ 2 * norm2 x.
Proof. by rewrite /norm2 mulr_sumr; apply: eq_bigr => i _; rewrite mxE normrM exprMn. Qed.

Lemma residual2_norm2 n q (x : 'cV[C]_n) (y : 'M[C]_(n, q)) z : residual2 x y None z = norm2 (x - y *m z).
Proof. by apply: eq_bigr => i _; rewrite /weight_of mul1r !mxE. Qed.

Lemma inner_norm2 n (u : 'cV[C]_n) : inner None u u = norm2 u.
Proof. by rewrite innerE; apply: eq_bigr => i _; rewrite /weight_of mul1r normCKC. Qed.

(** Pythagoras *)
Lemma split_norm2 n q (x : 'cV[C]_n) (y : 'M[C]_(n, q)) z : wlse x y None = Some z -> norm2 x = norm2 (y *m z - x) + norm2 (y *m z).
Proof.
move=> /wlse_iff [U E].
have N : @nonneg C n None by move=> i; rewrite /weight_of ler01.
have := residual_gap 0 N E; rewrite !residual2_norm2 mulmx0 subr0 sub0r mulmxN inner_norm2 norm2_opp => ->.
by rewrite -norm2_opp opprB.
Qed.

Lemma cod_value n q (x : 'cV[C]_n) (y : 'M[C]_(n, q)) z : x != 0 -> wlse x y None = Some z ->
  coeff_determination x y = Some (Finite (sqrtC (norm2 (y *m z) / norm2 x))).
Proof.
move=> X E; have X2 : norm2 x != 0 by rewrite norm2_eq0.
rewrite /coeff_determination E /= (negbTE X2); congr (Some (Finite (sqrtC _))).
apply: (mulIf X2); rewrite mulrBl mul1r !mulfVK //.
by rewrite {1}(split_norm2 E) addrAC subrr add0r.
Qed.

Lemma cod_some n q (x : 'cV[C]_n) (y : 'M[C]_(n, q)) v : coeff_determination x y = Some v -> exists z, wlse x y None = Some z.
Proof. by rewrite /coeff_determination; case: (wlse x y None) => // z _; exists z. Qed.

(** the output zero *)
Lemma cod_zero n q (y : 'M[C]_(n, q)) v : coeff_determination 0 y = Some v -> v = NotNumber.
Proof.
move=> E; have [z Hz] := cod_some E; move: E; rewrite /coeff_determination Hz /=.
have S := split_norm2 Hz; have N0 : norm2 (0 : 'cV[C]_n) = 0 by apply/eqP; rewrite norm2_eq0.
rewrite N0 eqxx; suff -> : norm2 (y *m z - 0) = 0 by rewrite eqxx => -[].
apply/eqP; rewrite eq_le norm2_ge0 andbT; apply: le_trans (_ : norm2 (0 : 'cV[C]_n) <= 0); last by rewrite N0.
by rewrite [X in _ <= X]S ler_addl norm2_ge0.
Qed.

Lemma ratio n q (x : 'cV[C]_n) (y : 'M[C]_(n, q)) z : x != 0 -> wlse x y None = Some z -> 0 <= norm2 (y *m z) / norm2 x <= 1.
Proof.
move=> X E.
have X2 : 0 < norm2 x by rewrite lt0r norm2_eq0 X norm2_ge0.
rewrite divr_ge0 ?norm2_ge0 //= ler_pdivr_mulr // mul1r (split_norm2 E) ler_addr; exact: norm2_ge0.
Qed.

Lemma cod_bounds n q (x : 'cV[C]_n) (y : 'M[C]_(n, q)) v : x != 0 -> coeff_determination x y = Some v ->
  exists d, v = Finite d /\ 0 <= d <= 1.
Proof.
move=> X; case E : (wlse x y None) => [z|]; last by rewrite /coeff_determination E.
rewrite (cod_value X E) => -[<-]; eexists; split; first by []; have /andP [H0 H1] := ratio X E.
rewrite sqrtC_ge0 H0 /=; rewrite -sqrtC1; by rewrite ler_sqrtC // qualifE ?H0 ?ler01.
Qed.

Lemma cod_least n q (x : 'cV[C]_n) (y : 'M[C]_(n, q)) v : x != 0 -> coeff_determination x y = Some v ->
  exists d least, v = Finite d /\ 0 <= d /\
    (forall z, least <= norm2 (x - y *m z)) /\ (exists z, least = norm2 (x - y *m z)) /\
    d ^+ 2 * norm2 x = norm2 x - least.
Proof.
move=> X E; have [z Hz] := cod_some E; have X2 : norm2 x != 0 by rewrite norm2_eq0.
move: E; rewrite (cod_value X Hz) => -[<-]; have /andP [H0 _] := ratio X Hz.
exists (sqrtC (norm2 (y *m z) / norm2 x)), (norm2 (x - y *m z)); split; first by [].
split; first by rewrite sqrtC_ge0.
split.
  move=> z'; have N : @nonneg C n None by move=> i; rewrite /weight_of ler01.
  by have [] := wlse_least N Hz z'; rewrite !residual2_norm2.
split; first by exists z.
rewrite sqrtCK mulfVK // {1}(split_norm2 Hz) -(norm2_opp (x - _)) opprB.
by rewrite addrAC subrr add0r.
Qed.

Lemma cod_one n q (x : 'cV[C]_n) (y : 'M[C]_(n, q)) v : x != 0 -> coeff_determination x y = Some v -> (v = Finite 1 <-> exists z, x = y *m z).
Proof.
move=> X; case E : (wlse x y None) => [z|]; last by rewrite /coeff_determination E.
have X2 : norm2 x != 0 by rewrite norm2_eq0.
rewrite (cod_value X E) => -[<-]; split=> [[H]|[z' Hz]].
- exists z; have {H} : norm2 (y *m z) / norm2 x = 1 by rewrite -(sqrtCK (_ / _)) H expr1n.
  move/(congr1 (fun t => t * norm2 x)); rewrite mulfVK // mul1r {1}(split_norm2 E) => H.
  have : norm2 (y *m z - x) == 0 by rewrite -(addrK (norm2 (y *m z)) (norm2 (y *m z - x))) -H subrr.
  by rewrite norm2_eq0 subr_eq0 => /eqP ->.
- by rewrite (wlse_exact Hz E) -Hz divff // sqrtC1.
Qed.

Lemma cod_scale n q (x : 'cV[C]_n) (y : 'M[C]_(n, q)) c : c != 0 -> coeff_determination (c *: x) y = coeff_determination x y.
Proof.
move=> Hc; case: (eqVneq x 0) => [->|X]; first by rewrite scaler0.
case E : (wlse x y None) => [z|]; last by rewrite /coeff_determination wlse_scale E.
have E' : wlse (c *: x) y None = Some (c *: z) by rewrite wlse_scale E.
have X' : c *: x != 0 by rewrite scaler_eq0 negb_or Hc X.
rewrite (cod_value X E) (cod_value X' E') -scalemxAr !norm2_scale invfM mulrACA mulfV ?mul1r //.
by rewrite expf_eq0 /= normr_eq0.
Qed.

Lemma cod_change n q (x : 'cV[C]_n) (y : 'M[C]_(n, q)) (M : 'M[C]_q) : M \in unitmx -> coeff_determination x (y *m M) = coeff_determination x y.
Proof.
move=> U; rewrite /coeff_determination wlse_change //; case: (wlse x y None) => //= z.
by rewrite -mulmxA mulKVmx.
Qed.

Lemma cod_exists n q (x : 'cV[C]_n) (y : 'M[C]_(n, q)) :
  (exists v, coeff_determination x y = Some v) <-> forall v : 'cV[C]_q, y *m v = 0 -> v = 0.
Proof.
split=> [[v /cod_some [z /wlse_iff [U _]]] u Hu|I].
- by rewrite -[u]mul1mx -(mulVmx U) -mulmxA /WlseModel.normal /= -mulmxA Hu !mulmx0.
- have U : normal y None \in unitmx.
    have -> : normal y None = gram (herm cj y) by rewrite /gram hermK.
    rewrite gram_unit -kermx_eq0; apply/eqP/row_matrixP => i; rewrite row0.
    have H : row i (kermx (herm cj y)) *m herm cj y = 0 by apply/sub_kermxP; exact: row_sub.
    have := congr1 (@herm _ cj _ _) H; rewrite herm_mul hermK => H'.
    have {}H' : herm cj (row i (kermx (herm cj y))) = 0.
      by apply: I; rewrite H'; apply/matrixP => a b; rewrite !mxE rmorph0.
    rewrite -[LHS](hermK) H'; apply/matrixP => a b; by rewrite !mxE rmorph0.
  have [z E] : exists z, wlse x y None = Some z by apply/wlse_some.
  by rewrite /coeff_determination E; eexists.
Qed.

(** the order of the windows of the block *)
Lemma cod_order n q (x : 'cV[C]_n) (y : 'M[C]_(n, q)) (s : 'S_n) : coeff_determination (row_perm s x) (row_perm s y) = coeff_determination x y.
Proof.
rewrite /coeff_determination; have := wlse_perm cj x y None s; rewrite /= => ->.
case: (wlse x y None) => // z; have N (u : 'cV[C]_n) : norm2 (row_perm s u) = norm2 u.
  by rewrite /norm2 [RHS](reindex_inj (@perm_inj _ s)) /=; apply: eq_bigr => i _; rewrite mxE.
have -> : row_perm s y *m z - row_perm s x = row_perm s (y *m z - x) by apply/matrixP => i j; rewrite !mxE; congr (_ - _); apply: eq_bigr => k _; rewrite !mxE.
by rewrite !N.
Qed.
End Cod.
