(** Proofs about the weighted least-square estimate. *)
From mathcomp Require Import all_ssreflect all_fingroup all_algebra.
From Verif Require Import WlseModel.
Set Implicit Arguments.
Unset Strict Implicit.
Unset Printing Implicit Defensive.
Import GRing.Theory Num.Theory.
Local Open Scope ring_scope.

Section Field.
Variables (F : fieldType) (cj : {rmorphism F -> F}).
Notation herm := (herm cj). Notation normal := (normal cj). Notation rhs := (rhs cj). Notation wlse := (wlse cj).

Lemma herm_mul m n p (A : 'M[F]_(m, n)) (B : 'M_(n, p)) : herm (A *m B) = herm B *m herm A.
Proof. by rewrite /WlseModel.herm map_mxM trmx_mul. Qed.

Lemma dotdiag_mul n p r (w : option 'rV[F]_n) (x : 'M_(n, p)) (z : 'M_(p, r)) : dotdiag w (x *m z) = dotdiag w x *m z.
Proof. by case: w => [w|] //=; rewrite mulmxA. Qed.

Lemma dotdiag_add n p (w : option 'rV[F]_n) (x x' : 'M_(n, p)) : dotdiag w (x + x') = dotdiag w x + dotdiag w x'.
Proof. by case: w => [w|] //=; rewrite mulmxDr. Qed.

Lemma dotdiag_scale n p (w : option 'rV[F]_n) (c : F) (x : 'M_(n, p)) : dotdiag w (c *: x) = c *: dotdiag w x.
Proof. by case: w => [w|] //=; rewrite scalemxAr. Qed.

Lemma wlse_exact n p q (x : 'M[F]_(n, p)) (y : 'M_(n, q)) w z z' : x = y *m z -> wlse x y w = Some z' -> z' = z.
Proof.
move=> ->; rewrite /WlseModel.wlse /WlseModel.rhs; case: ifP => // U [<-].
by rewrite dotdiag_mul mulmxA -/(WlseModel.normal _ _ _) mulKmx.
Qed.

Lemma wlse_some n p q (x : 'M[F]_(n, p)) (y : 'M_(n, q)) w : (exists z, wlse x y w = Some z) <-> normal y w \in unitmx.
Proof. rewrite /WlseModel.wlse; case: ifP => U; split=> //; [by move=> _; eexists | by case]. Qed.

(** the normal equations characterise the estimate *)
Lemma wlse_iff n p q (x : 'M[F]_(n, p)) (y : 'M_(n, q)) w z :
  wlse x y w = Some z <-> normal y w \in unitmx /\ normal y w *m z = rhs x y w.
Proof.
rewrite /WlseModel.wlse; case: ifP => U; split=> //.
- by case=> <-; rewrite mulmxA mulmxV // mul1mx.
- by case=> _ <-; rewrite mulmxA mulVmx // mul1mx.
- by case.
Qed.

Lemma wlse_scale n p q (x : 'M[F]_(n, p)) (y : 'M_(n, q)) w c : wlse (c *: x) y w = omap (fun z => c *: z) (wlse x y w).
Proof.
rewrite /WlseModel.wlse; case: ifP => //= _; congr Some.
by rewrite /WlseModel.rhs dotdiag_scale -!scalemxAr.
Qed.

Lemma wlse_add n p q (x x' : 'M[F]_(n, p)) (y : 'M_(n, q)) w z z' :
  wlse x y w = Some z -> wlse x' y w = Some z' -> wlse (x + x') y w = Some (z + z').
Proof.
move=> /wlse_iff [U H] /wlse_iff [_ H']; apply/wlse_iff; split=> //.
by rewrite mulmxDr H H' /WlseModel.rhs dotdiag_add mulmxDr.
Qed.

Lemma normal_mul n q (y : 'M[F]_(n, q)) w (M : 'M_q) : normal (y *m M) w = herm M *m normal y w *m M.
Proof. by rewrite /WlseModel.normal herm_mul dotdiag_mul !mulmxA. Qed.

Lemma unitmx_herm q (M : 'M[F]_q) : (herm M \in unitmx) = (M \in unitmx).
Proof. by rewrite /WlseModel.herm unitmx_tr !unitmxE det_map_mx fmorph_unit unitfE. Qed.

Lemma wlse_change n p q (x : 'M[F]_(n, p)) (y : 'M_(n, q)) w (M : 'M_q) : M \in unitmx ->
  wlse x (y *m M) w = omap (fun z => invmx M *m z) (wlse x y w).
Proof.
move=> UM; have UH : herm M \in unitmx by rewrite unitmx_herm.
case E: (wlse x y w) => [z|] /=.
- apply/wlse_iff; move/wlse_iff: E => [U H]; rewrite normal_mul !unitmx_mul UH U UM; split=> //.
  have -> : herm M *m normal y w *m M *m (invmx M *m z) = herm M *m (normal y w *m z) by move: (normal y w) (herm M) => N Q; rewrite -!mulmxA (mulmxA M) mulmxV // mul1mx.
  by rewrite H /WlseModel.rhs herm_mul mulmxA.
- move: E; rewrite /WlseModel.wlse normal_mul !unitmx_mul UH UM andbT /=; by case: ifP.
Qed.

(** the order of the rows does not matter *)
Lemma wlse_perm n p q (x : 'M[F]_(n, p)) (y : 'M_(n, q)) w (s : 'S_n) :
  wlse (row_perm s x) (row_perm s y) (omap (col_perm s) w) = wlse x y w.
Proof.
have H m (z : 'M_(n, m)) : herm (row_perm s y) *m dotdiag (omap (col_perm s) w) (row_perm s z) = herm y *m dotdiag w z.
  apply/matrixP => i j; rewrite !mxE (reindex_inj (@perm_inj _ s^-1)) /=; apply: eq_bigr => k _.
  rewrite !mxE permKV; congr (_ * _); case: w => [w|] /=; last by rewrite !mxE permKV.
  by rewrite !mul_diag_mx !mxE permKV.
by rewrite /WlseModel.wlse /WlseModel.normal /WlseModel.rhs !H.
Qed.
End Field.

(** ** Least squares: complex numbers and non-negative weights *)
Section Least.
Variable C : numClosedFieldType.
Notation cj := (@conjC C).
Notation herm := (herm cj). Notation normal := (normal cj). Notation rhs := (rhs cj). Notation wlse := (wlse cj).

(** the weight of row [i] *)
Definition weight_of n (w : option 'rV[C]_n) (i : 'I_n) : C := if w is Some w then w 0 i else 1.

(** the weighted sum of the squared residuals *)
Definition residual2 n q (x : 'cV[C]_n) (y : 'M[C]_(n, q)) (w : option 'rV[C]_n) (z : 'cV[C]_q) : C :=
  \sum_i weight_of w i * `|x i 0 - (y *m z) i 0| ^+ 2.

Lemma dotdiagE n p (w : option 'rV[C]_n) (x : 'M_(n, p)) i j : dotdiag w x i j = weight_of w i * x i j.
Proof. by case: w => [w|] /=; rewrite ?mul_diag_mx ?mxE ?mul1r. Qed.

(** the weighted inner product *)
Definition inner n (w : option 'rV[C]_n) (u v : 'cV[C]_n) : C := (herm u *m dotdiag w v) 0 0.

Lemma innerE n (w : option 'rV[C]_n) u v : inner w u v = \sum_i weight_of w i * ((u i 0)^* * v i 0).
Proof. by rewrite /inner mxE; apply: eq_bigr => i _; rewrite dotdiagE !mxE mulrCA. Qed.

Lemma residual2E n q (x : 'cV[C]_n) (y : 'M[C]_(n, q)) w z : residual2 x y w z = inner w (x - y *m z) (x - y *m z).
Proof. by rewrite innerE; apply: eq_bigr => i _; rewrite normCKC !mxE. Qed.

Lemma inner_sub n (w : option 'rV[C]_n) r u : inner w (r - u) (r - u) = inner w r r - inner w r u - inner w u r + inner w u u.
Proof.
rewrite !innerE -!sumrB -big_split /=; apply: eq_bigr => i _; rewrite !mxE rmorphB /=.
by rewrite mulrBl !mulrBr opprB addrA addrAC.
Qed.

Definition nonneg n (w : option 'rV[C]_n) : Prop := forall i, 0 <= weight_of w i.

Lemma inner_conj n (w : option 'rV[C]_n) u v : nonneg w -> inner w u v = (inner w v u)^*.
Proof.
move=> H; rewrite !innerE rmorph_sum /=; apply: eq_bigr => i _.
by rewrite !rmorphM /= conjCK (CrealP (ger0_real (H i))); congr (_ * _); rewrite mulrC.
Qed.

Lemma inner_ge0 n (w : option 'rV[C]_n) u : nonneg w -> 0 <= inner w u u.
Proof. by move=> H; rewrite innerE; apply: sumr_ge0 => i _; rewrite mulr_ge0 // -normCKC exprn_ge0. Qed.

Lemma inner_eq0 n (w : option 'rV[C]_n) u : nonneg w -> inner w u u = 0 -> dotdiag w u = 0.
Proof.
move=> H; rewrite innerE => E; apply/colP => i; rewrite dotdiagE mxE.
have P j : true -> 0 <= weight_of w j * ((u j 0)^* * u j 0) by move=> _; rewrite mulr_ge0 // -normCKC exprn_ge0.
have Q : weight_of w i * (cj (u i 0) * u i 0) = 0 by apply: (psumr_eq0P P E).
move: Q => Q; move/eqP: Q; rewrite -normCKC mulf_eq0 expf_eq0 /= normr_eq0.
by case/orP => /eqP ->; rewrite ?mul0r ?mulr0.
Qed.

Lemma residual_gap n q (x : 'cV[C]_n) (y : 'M[C]_(n, q)) w z z' : nonneg w -> normal y w *m z = rhs x y w ->
  residual2 x y w z' = residual2 x y w z + inner w (y *m (z' - z)) (y *m (z' - z)).
Proof.
move=> H E; rewrite !residual2E; set r := x - y *m z; set u := y *m (z' - z).
have -> : x - y *m z' = r - u by rewrite /r /u mulmxBr opprB addrA subrK.
have O : inner w u r = 0.
  rewrite /inner /u herm_mul -mulmxA; suff -> : herm y *m dotdiag w r = 0 by rewrite mulmx0 mxE.
  have -> : dotdiag w r = dotdiag w x - dotdiag w y *m z.
    by rewrite -dotdiag_mul /r; apply/matrixP => i j; rewrite !(dotdiagE, mxE) mulrBr.
  rewrite mulmxBr mulmxA; apply/eqP; rewrite subr_eq0; apply/eqP; symmetry; exact: E.
by rewrite inner_sub (inner_conj r u H) O conjC0 !subr0.
Qed.

Lemma wlse_least n q (x : 'cV[C]_n) (y : 'M[C]_(n, q)) w z : nonneg w -> wlse x y w = Some z ->
  forall z', residual2 x y w z <= residual2 x y w z' /\ (residual2 x y w z' = residual2 x y w z -> z' = z).
Proof.
move=> H /wlse_iff [U E] z'; rewrite (residual_gap z' H E); split.
- by rewrite ler_addl inner_ge0.
- rewrite -[X in _ = X -> _]addr0 => /addrI /(inner_eq0 H).
  rewrite dotdiag_mul => D; apply/eqP; rewrite -subr_eq0; apply/eqP.
  by rewrite -[z' - z]mul1mx -(mulVmx U) -mulmxA {2}/WlseModel.normal -mulmxA D !mulmx0.
Qed.
End Least.
