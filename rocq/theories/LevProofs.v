(** Lemmas about the leverages of the rows. *)
From mathcomp Require Import all_ssreflect all_fingroup all_algebra.
From Verif Require Import WlseModel WlseProofs.
Set Implicit Arguments.
Unset Strict Implicit.
Unset Printing Implicit Defensive.
Import GRing.Theory Num.Theory.
Local Open Scope ring_scope.

Section Lev.
Variable C : numClosedFieldType.
Notation cj := (@conjC C).
Notation herm := (herm cj). Notation normal := (normal cj).

Lemma colM m p r (A : 'M[C]_(m, p)) (B : 'M[C]_(p, r)) i : col i (A *m B) = A *m col i B.
Proof. by rewrite !colE mulmxA. Qed.

Section One.
Variables (n q : nat) (b : 'M[C]_(n, q)) (w : option 'rV[C]_n).
Hypothesis Hw : nonneg w.
Hypothesis U : normal b w \in unitmx.
Let P := b *m (invmx (normal b w) *m herm b).

Lemma lev_entry i : \sum_j (invmx (normal b w) *m herm b) j i * b^T j i = P i i.
Proof. by rewrite /P [RHS]mxE; apply: eq_bigr => j _; rewrite [b^T _ _]mxE mulrC. Qed.

Lemma lev_conj i : inner w (col i P) (col i P) = (P i i)^*.
Proof.
rewrite /inner.
have -> : col i P = b *m col i (invmx (normal b w) *m herm b) by rewrite /P colM.
set u := col i _.
rewrite herm_mul dotdiag_mul -mulmxA (mulmxA (herm b)).
have -> : herm b *m dotdiag w b *m u = col i (herm b).
  rewrite /u -colM mulmxA; have -> : herm b *m dotdiag w b = normal b w by [].
  by rewrite mulmxV // mul1mx.
have -> : (herm u *m col i (herm b)) 0 0 = ((b *m u) i 0)^*.
  rewrite !mxE rmorph_sum /=; apply: eq_bigr => j _; by rewrite !mxE rmorphM /= mulrC.
by rewrite /u -colM -/P mxE.
Qed.

Lemma lev_ge0 i : 0 <= P i i.
Proof. by rewrite -conjC_ge0 -lev_conj inner_ge0. Qed.

Lemma lev_inner i : inner w (col i P) (col i P) = P i i.
Proof. by rewrite lev_conj (CrealP (ger0_real (lev_ge0 i))). Qed.

Lemma lev_le i : weight_of w i * (P i i) ^+ 2 <= P i i.
Proof.
rewrite -[X in _ <= X]lev_inner innerE (bigD1 i) //= -normCKC [col i P i 0]mxE.
rewrite (ger0_norm (lev_ge0 i)) ler_addl; apply: sumr_ge0 => j _.
by rewrite mulr_ge0 // -normCKC exprn_ge0.
Qed.

Lemma lev_le1 i : weight_of w i * P i i <= 1.
Proof.
have H := lev_le i; have [E|N] := eqVneq (P i i) 0; first by rewrite E mulr0 ler01.
have G : 0 < P i i by rewrite lt0r N lev_ge0.
by rewrite -(ler_pmul2r G) mul1r -mulrA -expr2.
Qed.

Lemma lev_sum : \sum_i weight_of w i * P i i = q%:R.
Proof.
transitivity (\tr (dotdiag w b *m (invmx (normal b w) *m herm b))).
  apply: eq_bigr => i _; rewrite /P !mxE mulr_sumr; apply: eq_bigr => j _.
  by rewrite dotdiagE mulrA.
rewrite mxtrace_mulC -mulmxA; have -> : herm b *m dotdiag w b = normal b w by [].
by rewrite mulVmx // mxtrace1.
Qed.
End One.

Lemma leverageE n q (b : 'M[C]_(n, q)) w h : nonneg w -> leverage b w = Some h ->
  normal b w \in unitmx /\ forall i, h 0 i = weight_of w i * (b *m (invmx (normal b w) *m herm b)) i i.
Proof.
move=> H; rewrite /leverage; case: ifP => // U [<-]; split=> // i; rewrite mxE -/(weight_of w i) lev_entry.
by rewrite (Creal_ReP _ (ger0_real (lev_ge0 H U i))).
Qed.

Lemma leverage_bounds n q (b : 'M[C]_(n, q)) w h : nonneg w -> leverage b w = Some h ->
  (forall i, 0 <= h 0 i <= 1) /\ \sum_i h 0 i = q%:R.
Proof.
move=> H /(leverageE H) [U E]; split=> [i|].
- by rewrite E mulr_ge0 ?lev_ge0 //= lev_le1.
- rewrite -(lev_sum U); apply: eq_bigr => i _; exact: E.
Qed.

Lemma leverage_change n q (b : 'M[C]_(n, q)) w (M : 'M[C]_q) : M \in unitmx -> leverage (b *m M) w = leverage b w.
Proof.
move=> UM.
have N : normal (b *m M) w = herm M *m normal b w *m M by rewrite /WlseModel.normal herm_mul dotdiag_mul !mulmxA.
have UH : herm M \in unitmx by rewrite /WlseModel.herm unitmx_tr map_unitmx.
rewrite /leverage N !unitmx_mul UM UH andbT /=; case: ifP => // U; congr Some; apply/rowP => i; rewrite !mxE; congr (_ * 'Re _).
rewrite -N !lev_entry N herm_mul; congr (fun_of_matrix _ i i).
have V : invmx (herm M *m normal b w *m M) = invmx M *m (invmx (normal b w) *m invmx (herm M)).
  move: (herm M) UH (normal b w) U {N} => K UH A U.
  have UU : K *m A *m M \in unitmx by rewrite !unitmx_mul UH U UM.
  apply: (can_inj (mulKmx UU)); rewrite mulmxV // -!mulmxA (mulKVmx UM) (mulKVmx U) mulmxV //.
rewrite V -!mulmxA (mulKVmx UM); congr (_ *m (_ *m _)); by rewrite mulKmx.
Qed.
End Lev.
