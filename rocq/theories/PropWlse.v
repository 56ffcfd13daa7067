(** Weighted least squares (C46-C48, and the weights of m_estimate in C43). *)
From mathcomp Require Import all_ssreflect all_fingroup all_algebra.
From Verif Require Import WlseModel WlseProofs WlseRows LevProofs.
From Coq Require Lia.
From Verif Require Base MestModel SpecMest.
Set Implicit Arguments.
Unset Strict Implicit.
Unset Printing Implicit Defensive.
Import GRing.Theory Num.Theory.
Local Open Scope ring_scope.

(** ** C46: exact relations are recovered, for every weight with invertible
    normal matrix, and the estimate exists exactly then *)
Theorem C46_exact_relation : forall (F : fieldType) (cj : {rmorphism F -> F}) n p q (x : 'M[F]_(n, p)) (y : 'M[F]_(n, q)) (w : option 'rV[F]_n) z,
  x = y *m z -> (map_mx cj y)^T *m (if w is Some w then diag_mx w *m y else y) \in unitmx -> wlse cj x y w = Some z.
Proof.
move=> F cj n p q x y w z E U; have U' : normal cj y w \in unitmx by [].
have [z' Hz] := proj2 (wlse_some cj x y w) U'; by rewrite Hz (wlse_exact E Hz).
Qed.
Print Assumptions C46_exact_relation.

Theorem C46_singular : forall (F : fieldType) (cj : {rmorphism F -> F}) n p q (x : 'M[F]_(n, p)) (y : 'M[F]_(n, q)) (w : option 'rV[F]_n),
  (map_mx cj y)^T *m (if w is Some w then diag_mx w *m y else y) \notin unitmx -> wlse cj x y w = None.
Proof. by move=> F cj n p q x y w U; rewrite /wlse (negbTE U). Qed.
Print Assumptions C46_singular.

(** three rows, one input, two outputs, weights 1, 0, 2 *)
Section Example46.
Let y : 'cV[rat]_3 := \col_i (i%:R + 1).
Let z : 'rV[rat]_2 := \row_j (j%:R + 5%:R).
Let w : option 'rV[rat]_3 := Some (\row_i (if i == 0 then 1 else if i == 1 then 0 else 2%:R)).
Lemma example_unit : (map_mx [rmorphism of idfun] y)^T *m (if w is Some w then diag_mx w *m y else y) \in unitmx.
Proof.
rewrite unitmxE det_mx11 unitfE /w /= !mxE !big_ord_recl big_ord0 !mul_diag_mx !mxE /=; by vm_compute.
Qed.
Example C46_nonvacuous : wlse [rmorphism of idfun] (y *m z) y w = Some z.
Proof. by apply: C46_exact_relation; [|exact: example_unit]. Qed.
End Example46.

(** ** C47: least squares. The weighted sum of squared residuals of the estimate
    is the smallest one, and no other vector reaches it. *)
Theorem C47_least : forall (C : numClosedFieldType) n q (x : 'cV[C]_n) (y : 'M[C]_(n, q)) (w : option 'rV[C]_n) z,
  (forall i, 0 <= if w is Some w then w 0 i else 1) -> wlse (@conjC C) x y w = Some z ->
  forall z',
  let ss z := \sum_i (if w is Some w then w 0 i else 1) * `|x i 0 - (y *m z) i 0| ^+ 2 in
  ss z <= ss z' /\ (ss z' = ss z -> z' = z).
Proof. by move=> C n q x y w z H E z'; exact: (wlse_least H E z'). Qed.
Print Assumptions C47_least.

(** the mean is the least-square estimate of a constant *)
Example C47_nonvacuous : forall C : numClosedFieldType, exists z, wlse (@conjC C) (\col_(i < 3) i%:R) (const_mx 1 : 'cV_3) None = Some z.
Proof.
move=> C; apply/wlse_some; rewrite unitmxE det_mx11 unitfE !mxE !big_ord_recl big_ord0 !mxE /= rmorph1 !mulr1 addr0.
by rewrite -[1 + (1 + 1)]/(3%:R) pnatr_eq0.
Qed.

(** ** C48: equivariance *)
Theorem C48_output_scale : forall (F : fieldType) (cj : {rmorphism F -> F}) n p q (x : 'M[F]_(n, p)) (y : 'M[F]_(n, q)) w c,
  wlse cj (c *: x) y w = omap (fun z => c *: z) (wlse cj x y w).
Proof. exact: wlse_scale. Qed.
Print Assumptions C48_output_scale.

Theorem C48_output_sum : forall (F : fieldType) (cj : {rmorphism F -> F}) n p q (x x' : 'M[F]_(n, p)) (y : 'M[F]_(n, q)) w z z',
  wlse cj x y w = Some z -> wlse cj x' y w = Some z' -> wlse cj (x + x') y w = Some (z + z').
Proof. exact: wlse_add. Qed.
Print Assumptions C48_output_sum.

Theorem C48_input_change : forall (F : fieldType) (cj : {rmorphism F -> F}) n p q (x : 'M[F]_(n, p)) (y : 'M[F]_(n, q)) w (M : 'M[F]_q),
  M \in unitmx -> wlse cj x (y *m M) w = omap (fun z => invmx M *m z) (wlse cj x y w).
Proof. exact: wlse_change. Qed.
Print Assumptions C48_input_change.

(** the order of the rows does not matter *)
Theorem C48_row_order : forall (F : fieldType) (cj : {rmorphism F -> F}) n p q (x : 'M[F]_(n, p)) (y : 'M[F]_(n, q)) w (s : 'S_n),
  wlse cj (row_perm s x) (row_perm s y) (omap (col_perm s) w) = wlse cj x y w.
Proof. exact: wlse_perm. Qed.
Print Assumptions C48_row_order.

(** changing one input from y to 2 y halves the estimate *)
Section Example48.
Let y : 'cV[rat]_3 := \col_i (i%:R + 1).
Let w : option 'rV[rat]_3 := Some (\row_i (if i == 0 then 1 else if i == 1 then 0 else 2%:R)).
Let M : 'M[rat]_1 := 2%:R%:M.
Example C48_nonvacuous : M \in unitmx /\ wlse [rmorphism of idfun] (y *m 6%:R%:M) (y *m M) w = Some (invmx M *m 6%:R%:M).
Proof.
have U : M \in unitmx by rewrite unitmxE det_scalar1.
split=> //; by rewrite C48_input_change // (@C46_exact_relation _ _ _ _ _ _ y w 6%:R%:M) //; exact: example_unit.
Qed.
End Example48.

(** ** C43, None weight: the estimate with weight 0 on the invalid rows and 1
    elsewhere (C43_least_squares) is plain least squares on the retained rows *)
Theorem C43_retained_rows : forall (F : fieldType) (cj : {rmorphism F -> F}) q (e : seq F) (b : seq 'rV[F]_q) (w : seq F) iv left e' b',
  size b = size e -> size w = size e ->
  (forall n, lt n (Datatypes.length e) -> (List.In (BinInt.Z.of_nat n) iv -> List.nth_error w n = Some 0) /\
                                      (~ List.In (BinInt.Z.of_nat n) iv -> List.nth_error w n = Some 1)) ->
  SpecMest.remain (List.seq 0 (Datatypes.length e)) iv left -> SpecMest.pick e left e' -> SpecMest.pick b left b' ->
  wlse_rows cj e b (Some w) = wlse_rows cj e' b' None.
Proof. exact: retained_rows. Qed.
Print Assumptions C43_retained_rows.

(** three rows, the second one rejected *)
Section Example43.
Let e : seq rat := [:: 3%:R; 100%:R; 5%:R].
Let b : seq 'rV[rat]_1 := [:: const_mx 1; const_mx 1; const_mx 2%:R].
Example C43_retained_rows_nonvacuous :
  wlse_rows [rmorphism of idfun] e b (Some [:: 1; 0; 1]) = wlse_rows [rmorphism of idfun] [:: 3%:R; 5%:R] [:: const_mx 1; const_mx 2%:R] None.
Proof.
have := @C43_retained_rows _ [rmorphism of idfun] _ e b [:: 1; 0; 1] [:: BinInt.Z.of_nat 1] [:: 0%N; 2%N] [:: 3%:R; 5%:R] [:: const_mx 1; const_mx 2%:R]; apply.
- by [].
- by [].
- move=> n H; have {H} : n = 0%N \/ n = 1%N \/ n = 2%N by move: H; rewrite /=; Lia.lia.
  case=> [->|[->|->]]; split=> //=; (try by case); by move=> N; case: N; left.
- split; first by repeat (constructor; try by []; try Lia.lia).
  move=> x; split=> [[<-|[<-|[]]]|[[|[|[|p]]] [/= H N]]].
  + by exists 0%N; split=> // [] [].
  + by exists 2%N; split=> // [] [].
  + by case: H; left.
  + by case: N; left.
  + by case: H; right; left.
  + by case: p H {N}.
- by do 3 constructor.
- by do 3 constructor.
Qed.
End Example43.

(** ** C78: leverages of the rows, as computed by the bounded-influence step *)
Theorem C78_leverage : forall (C : numClosedFieldType) n q (b : 'M[C]_(n, q)) (w : option 'rV[C]_n) h,
  (forall i, 0 <= if w is Some w then w 0 i else 1) -> leverage b w = Some h ->
  (forall i, 0 <= h 0 i <= 1) /\ \sum_i h 0 i = q%:R.
Proof. by move=> C n q b w h H E; exact: leverage_bounds H E. Qed.
Print Assumptions C78_leverage.

Theorem C78_input_change : forall (C : numClosedFieldType) n q (b : 'M[C]_(n, q)) (w : option 'rV[C]_n) (M : 'M[C]_q),
  M \in unitmx -> leverage (b *m M) w = leverage b w.
Proof. exact: leverage_change. Qed.
Print Assumptions C78_input_change.

Example C78_nonvacuous : forall C : numClosedFieldType, exists h, leverage (const_mx 1 : 'cV[C]_3) None = Some h.
Proof.
move=> C; rewrite /leverage; case: ifP; first by eexists.
have [z] := C47_nonvacuous C; by rewrite /wlse => E U; move: E; rewrite U.
Qed.
