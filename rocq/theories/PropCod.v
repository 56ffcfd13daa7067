(** The coefficient of determination of a block (C81). *)
From mathcomp Require Import all_ssreflect all_fingroup all_algebra.
From Verif Require Import WlseModel WlseProofs ErrModel CodModel CodProofs.
Set Implicit Arguments.
Unset Strict Implicit.
Unset Printing Implicit Defensive.
Import GRing.Theory Num.Theory.
Local Open Scope ring_scope.

(** the square root of the part of the energy of the output that is explained by the
    best combination of the inputs *)
Theorem C81_value : forall (C : numClosedFieldType) n q (x : 'cV[C]_n) (y : 'M[C]_(n, q)) v,
  x != 0 -> coeff_determination x y = Some v ->
  exists d least, v = Finite d /\ 0 <= d /\
    (forall z, least <= \sum_i `|(x - y *m z) i 0| ^+ 2) /\ (exists z, least = \sum_i `|(x - y *m z) i 0| ^+ 2) /\
    d ^+ 2 * (\sum_i `|x i 0| ^+ 2) = (\sum_i `|x i 0| ^+ 2) - least.
Proof. exact: cod_least. Qed.
Print Assumptions C81_value.

Theorem C81_range : forall (C : numClosedFieldType) n q (x : 'cV[C]_n) (y : 'M[C]_(n, q)) v,
  x != 0 -> coeff_determination x y = Some v -> exists d, v = Finite d /\ 0 <= d <= 1.
Proof. exact: cod_bounds. Qed.
Print Assumptions C81_range.

(** one exactly for outputs that are combinations of the inputs *)
Theorem C81_exact_fit : forall (C : numClosedFieldType) n q (x : 'cV[C]_n) (y : 'M[C]_(n, q)) v,
  x != 0 -> coeff_determination x y = Some v -> (v = Finite 1 <-> exists z, x = y *m z).
Proof. exact: cod_one. Qed.
Print Assumptions C81_exact_fit.

(** not a number for an output that is zero *)
Theorem C81_zero_output : forall (C : numClosedFieldType) n q (y : 'M[C]_(n, q)) v, coeff_determination 0 y = Some v -> v = NotNumber.
Proof. exact: cod_zero. Qed.
Print Assumptions C81_zero_output.

(** it exists exactly when no input is a combination of the others *)
Theorem C81_exists : forall (C : numClosedFieldType) n q (x : 'cV[C]_n) (y : 'M[C]_(n, q)),
  (exists v, coeff_determination x y = Some v) <-> forall v : 'cV[C]_q, y *m v = 0 -> v = 0.
Proof. exact: cod_exists. Qed.
Print Assumptions C81_exists.

Theorem C81_units : forall (C : numClosedFieldType) n q (x : 'cV[C]_n) (y : 'M[C]_(n, q)) c (M : 'M[C]_q),
  c != 0 -> M \in unitmx -> coeff_determination (c *: x) (y *m M) = coeff_determination x y.
Proof. by move=> C n q x y c M Hc U; rewrite cod_scale // cod_change. Qed.
Print Assumptions C81_units.

(** the order of the windows of the block does not matter *)
Theorem C81_order : forall (C : numClosedFieldType) n q (x : 'cV[C]_n) (y : 'M[C]_(n, q)) (s : 'S_n),
  coeff_determination (row_perm s x) (row_perm s y) = coeff_determination x y.
Proof. exact: cod_order. Qed.
Print Assumptions C81_order.

(** fitting 1, 2, 3 by a constant: the best one leaves 2 of 14 *)
Example C81_nonvacuous : forall C : numClosedFieldType, (\col_(i < 3) (i%:R + 1) : 'cV[C]_3) != 0 /\
  exists d, coeff_determination (\col_(i < 3) (i%:R + 1)) (const_mx 1 : 'cV[C]_3) = Some (Finite d) /\ d ^+ 2 = 6%:R / 7%:R.
Proof.
move=> C; have N : (\col_(i < 3) (i%:R + 1) : 'cV[C]_3) != 0.
  by apply/eqP => /colP /(_ 0); rewrite !mxE add0r => /eqP; rewrite oner_eq0.
split=> //.
have U : normal (@conjC C) (const_mx 1 : 'cV[C]_3) None \in unitmx.
  rewrite unitmxE det_mx11 unitfE !mxE !big_ord_recl big_ord0 !mxE /= rmorph1 !mulr1 addr0.
  by rewrite -[1 + (1 + 1)]/(3%:R) pnatr_eq0.
have E : wlse (@conjC C) (\col_(i < 3) (i%:R + 1)) (const_mx 1 : 'cV[C]_3) None = Some (2%:R)%:M.
  apply/wlse_iff; split=> //; apply/matrixP => i j; rewrite !ord1 !mxE !big_ord_recl !big_ord0 !mxE /= !big_ord_recl !big_ord0 !mxE /= ?rmorph1 ?mul1r ?mulr1 ?mulr1n ?addr0 ?add0r.
  by rewrite -[1 + (1 + 1)]/(3%:R) -[1 + 1]/(2%:R) -natrM -[_%:R + 1]mulrSr -natrD -[1 + _]mulrS.
rewrite (cod_value N E); eexists; split; first by [].
rewrite sqrtCK /norm2 !big_ord_recl !big_ord0 !mxE !big_ord_recl !big_ord0 !mxE /= !mul1r !addr0 ?mulr1n ?add0r.
rewrite -[_%:R + 1]mulrSr -[1 + 1]/(2%:R) !normr_nat normr1 expr1n -!natrX -!natrD -[1 + _]mulrS.
by apply/eqP; rewrite eqr_div ?pnatr_eq0 // -!natrM.
Qed.
