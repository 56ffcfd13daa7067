(** Lemmas about the error of a transfer function. *)
From mathcomp Require Import all_ssreflect all_fingroup all_algebra.
From Verif Require Import WlseModel WlseProofs ErrModel.
Set Implicit Arguments.
Unset Strict Implicit.
Unset Printing Implicit Defensive.
Import Order.POrderTheory GRing.Theory Num.Theory.
Local Open Scope ring_scope.

Section Err.
Variable C : numClosedFieldType.
Notation cj := (@conjC C).
Notation herm := (herm cj).

(** squared norm of a row *)
Definition sq n (x : 'rV[C]_n) : C := \sum_t `|x 0 t| ^+ 2.
Lemma sq_ge0 n (x : 'rV[C]_n) : 0 <= sq x.
Proof. by apply: sumr_ge0 => i _; rewrite exprn_ge0. Qed.
Lemma sq_eq0 n (x : 'rV[C]_n) : (sq x == 0) = (x == 0).
Proof.
apply/eqP/eqP => [E|->]; last by rewrite /sq big1 // => i _; rewrite mxE normr0 expr0n.
have P j : true -> 0 <= `|x 0 j| ^+ 2 by move=> _; rewrite exprn_ge0.
apply/rowP => i; have Q : `|x 0 i| ^+ 2 = 0 by apply: (psumr_eq0P P E).
by move/eqP: Q; rewrite expf_eq0 /= normr_eq0 mxE => /eqP.
Qed.
Lemma sq_scale n (x : 'rV[C]_n) c : sq (c *: x) = `|c| ^+ 2 * sq x.
Proof. by rewrite /sq mulr_sumr; apply: eq_bigr => i _; rewrite mxE normrM exprMn. Qed.

Lemma hermE m n (A : 'M[C]_(m, n)) i j : herm A i j = (A j i)^*.
Proof. by rewrite !mxE. Qed.
Lemma hermK m n (A : 'M[C]_(m, n)) : herm (herm A) = A.
Proof. by apply/matrixP => i j; rewrite !hermE conjCK. Qed.
Lemma sqE n (x : 'rV[C]_n) : sq x = (x *m herm x) 0 0.
Proof. by rewrite mxE; apply: eq_bigr => i _; rewrite hermE normCK. Qed.
Lemma sq_mul n p (A : 'M[C]_(p, n)) (v : 'rV[C]_p) : sq (v *m A) = (v *m gram A *m herm v) 0 0.
Proof. by rewrite sqE herm_mul /gram !mulmxA. Qed.

(** ** when the inverse exists *)
Lemma gram_unit p n (A : 'M[C]_(p, n)) : (gram A \in unitmx) = row_free A.
Proof.
apply/idP/idP => H.
- rewrite -kermx_eq0; apply/eqP/row_matrixP => i; rewrite row0.
  have E : row i (kermx A) *m A = 0 by rewrite -row_mul mulmx_ker row0.
  have : row i (kermx A) *m gram A = 0 by rewrite /gram mulmxA E mul0mx.
  by move/(congr1 (mulmx^~ (invmx (gram A)))); rewrite mulmxK // mul0mx.
- rewrite -row_free_unit -kermx_eq0; apply/eqP/row_matrixP => i; rewrite row0.
  have E : row i (kermx (gram A)) *m gram A = 0 by rewrite -row_mul mulmx_ker row0.
  have : sq (row i (kermx (gram A)) *m A) == 0 by rewrite sq_mul E mul0mx mxE.
  rewrite sq_eq0 => /eqP Z; apply: (row_free_inj H); by rewrite Z mul0mx.
Qed.

Lemma enough_rows p n (A : 'M[C]_(p, n)) : gram A \in unitmx -> (p <= n)%N.
Proof. by rewrite gram_unit => /eqP <-; exact: rank_leq_col. Qed.

(** an estimate from some of the windows *)
Lemma estimate_free m p n k (b : 'M[C]_(n, p)) (f : 'I_k -> 'I_n) (x : 'M[C]_(k, m)) w z :
  wlse cj x (rowsub f b) w = Some z -> gram b^T \in unitmx.
Proof.
move=> E; have U : normal cj (rowsub f b) w \in unitmx by apply/(wlse_some cj x); exists z.
rewrite gram_unit -kermx_eq0; apply/eqP/row_matrixP => i; rewrite row0.
have K : row i (kermx b^T) *m b^T = 0 by rewrite -row_mul mulmx_ker row0.
set u := (row i (kermx b^T))^T; have Z : b *m u = 0 by apply: trmx_inj; rewrite trmx_mul trmxK K trmx0.
have : normal cj (rowsub f b) w *m u = 0.
  rewrite /normal -mulmxA -dotdiag_mul.
  rewrite mul_rowsub_mx Z; have -> : rowsub f (0 : 'cV[C]_n) = 0 by apply/matrixP => a c; rewrite !mxE.
  by case: w {E U} => [w|]; rewrite /= ?mulmx0.
move/(congr1 (mulmx (invmx (normal cj (rowsub f b) w)))); rewrite mulKmx // mulmx0.
by move/(congr1 trmx); rewrite trmxK trmx0.
Qed.

(** ** the diagonal of the inverse: distances to the other inputs *)
Section Diag.
Variables (p n : nat) (A : 'M[C]_(p, n)) (j : 'I_p).
Hypothesis U : gram A \in unitmx.
Let G := gram A.
Let g := invmx G j j.

Lemma gram_herm : herm G = G.
Proof. by rewrite /G /gram herm_mul hermK. Qed.
Lemma inv_herm : herm (invmx G) = invmx G.
Proof.
have : herm (invmx G) *m G = 1%:M.
  rewrite -{2}gram_herm -herm_mul mulmxV //; apply/matrixP => a c; rewrite hermE !mxE eq_sym; by case: eqP; rewrite ?rmorph1 ?rmorph0.
by move/(congr1 (mulmx^~ (invmx G))); rewrite mulmxK // mul1mx.
Qed.

Let d := row j (invmx G).
Lemma d_gram : d *m G = delta_mx 0 j.
Proof. by rewrite /d -row_mul mulVmx // rowE mulmx1. Qed.
Lemma d_sq : sq (d *m A) = g.
Proof.
rewrite sq_mul d_gram -rowE mxE hermE /d mxE.
by have := congr1 (fun M : 'M[C]_p => M j j) inv_herm; rewrite hermE.
Qed.
Lemma g_gt0 : 0 < g.
Proof.
rewrite -d_sq lt0r sq_ge0 andbT sq_eq0; apply/eqP => Z.
have : d *m G = 0 by rewrite /G /gram mulmxA Z mul0mx.
rewrite d_gram => /rowP /(_ j); rewrite !mxE !eqxx => /eqP; by rewrite oner_eq0.
Qed.

(** the smallest squared norm of a combination with coefficient one for input [j] *)
Lemma distance : (forall v : 'rV[C]_p, v 0 j = 1 -> g^-1 <= sq (v *m A)) /\ exists v : 'rV[C]_p, v 0 j = 1 /\ sq (v *m A) = g^-1.
Proof.
have G0 := g_gt0; have N : g != 0 by exact: lt0r_neq0.
have R : g^* = g by apply/CrealP; apply: gtr0_real.
have W0 : (g^-1 *: d) 0 j = 1 by rewrite !mxE mulVf.
have W1 : sq ((g^-1 *: d) *m A) = g^-1.
  rewrite -scalemxAl sq_scale d_sq normfV (gtr0_norm G0) expr2 -mulrA mulVf ?mulr1 //.
split; last by exists (g^-1 *: d).
move=> v Hv; set w := g^-1 *: d in W0 W1; set u := v - w.
have U0 : u 0 j = 0 by rewrite /u mxE [(- w) 0 j]mxE Hv W0 subrr.
have X1 : (w *m G *m herm u) 0 0 = 0.
  rewrite /w -!scalemxAl d_gram mxE -rowE mxE hermE U0; by rewrite rmorph0 mulr0.
have X2 : (u *m G *m herm w) 0 0 = 0.
  have : herm (w *m G *m herm u) = u *m G *m herm w by rewrite herm_mul (herm_mul _ w G) hermK gram_herm mulmxA.
  by move=> <-; rewrite hermE X1 rmorph0.
have -> : sq (v *m A) = sq (w *m A) + sq (u *m A).
  have -> : v = w + u by rewrite /u addrC subrK.
  have HH : herm (w + u) = herm w + herm u by apply/matrixP => a c; rewrite [RHS]mxE !hermE mxE rmorphD.
  rewrite !sq_mul -/G HH mulmxDl mulmxDr mulmxDl mulmxDl !mxE.
  rewrite mxE in X1; rewrite mxE in X2; by rewrite X1 X2 addr0 add0r.
by rewrite W1 ler_addl sq_ge0.
Qed.
End Diag.

(** ** the values *)
Lemma row_res m p n (outputs : 'M[C]_(m, n)) (inputs : 'M[C]_(p, n)) (transfer : 'M[C]_(m, p)) i :
  row i outputs - row i transfer *m inputs = row i (outputs - transfer *m inputs).
Proof. by rewrite linearB /= row_mul. Qed.

Lemma sqrt_pos (x : C) : 0 < x -> 0 < sqrtC x.
Proof. by rewrite sqrtC_gt0. Qed.

Section Values.
Variables (m p n : nat) (outputs : 'M[C]_(m, n)) (inputs : 'M[C]_(p, n)) (transfer : 'M[C]_(m, p)) (ivs : 'I_m -> seq nat).
Variable err : 'I_m -> 'I_p -> errv C.
Hypothesis E : transfer_error outputs inputs transfer ivs = Some err.

Lemma err_unit : gram inputs \in unitmx.
Proof. by move: E; rewrite /transfer_error; case: ifP. Qed.

Lemma err_entry i j : err i j = emul (ediv (ediv (Finite (sqrtC (sq (row i (outputs - transfer *m inputs))))) (sqrtC (n%:R - p%:R) / n%:R))
    (n%:R - (size (ivs i))%:R)) (sqrtC (invmx (gram inputs) j j)).
Proof.
have U := err_unit; move: E; rewrite /transfer_error U => -[<-]; rewrite -row_res /sq.
by rewrite (gtr0_norm (g_gt0 j U)).
Qed.

Lemma err_value i j : (p < n)%N -> (size (ivs i) < n)%N -> exists x, err i j = Finite x /\ 0 <= x /\
  x ^+ 2 * (invmx (gram inputs) j j)^-1 * (n - p)%:R * ((n - size (ivs i))%:R) ^+ 2 = n%:R ^+ 2 * sq (row i (outputs - transfer *m inputs)).
Proof.
move=> Hp Hs; rewrite err_entry; set S := sq _; set g := invmx _ j j.
have S0 : 0 <= S by exact: sq_ge0.
have G0 : 0 < g := g_gt0 j err_unit.
rewrite -!natrB ?(ltnW Hp) ?(ltnW Hs) //.
set N := n%:R; set a := (n - p)%:R; set b := (n - _)%:R.
have N0 : 0 < N :> C by rewrite ltr0n (leq_ltn_trans _ Hp).
have A0 : 0 < a :> C by rewrite ltr0n subn_gt0.
have B0 : 0 < b :> C by rewrite ltr0n subn_gt0.
have R0 : 0 < sqrtC a / N by rewrite divr_gt0 ?sqrt_pos.
rewrite /ediv (negbTE (lt0r_neq0 R0)) (negbTE (lt0r_neq0 B0)) /=; eexists; split; first by [].
split.
  by apply: mulr_ge0; [apply: divr_ge0; [apply: divr_ge0; [rewrite sqrtC_ge0|exact: ltW]|exact: ltW]|rewrite sqrtC_ge0; exact: ltW].
have [AN BN GN] : [/\ a != 0, b ^+ 2 != 0 & g != 0] by split; rewrite ?expf_neq0 ?lt0r_neq0.
have -> : (sqrtC S / (sqrtC a / N) / b * sqrtC g) ^+ 2 = S * N ^+ 2 / a / b ^+ 2 * g.
  by rewrite exprMn exprMn exprVn invf_div !exprMn exprVn !sqrtCK !mulrA.
by rewrite mulfK // -[_ * a * _]mulrA (mulrC a) mulrA mulfVK // mulfVK // mulrC.
Qed.

Lemma err_degenerate i j : p = n \/ size (ivs i) = n -> err i j = if row i outputs == row i (transfer *m inputs) then NotNumber else Infinite.
Proof.
move=> H; rewrite err_entry; set S := sq _; set g := invmx _ j j.
have G0 : 0 < g := g_gt0 j err_unit.
have ES : (sqrtC S == 0) = (row i outputs == row i (transfer *m inputs)).
  by rewrite sqrtC_eq0 sq_eq0 linearB /= subr_eq0.
have Q : (sqrtC g == 0) = false by apply/negbTE; rewrite sqrtC_eq0 lt0r_neq0.
case: H => H.
- have -> : n%:R - p%:R = 0 :> C by apply/eqP; rewrite subr_eq0 eqr_nat H.
  rewrite sqrtC0 mul0r /= eqxx ES; case: ifP => //= _; by rewrite Q.
- have [D|D] := eqVneq (sqrtC (n%:R - p%:R) / n%:R : C) 0.
    rewrite /ediv D eqxx ES; case: ifP => //= _; by rewrite Q.
  rewrite /ediv (negbTE D) H subrr eqxx mulf_eq0 invr_eq0 (negbTE D) orbF ES; case: ifP => //= _; by rewrite Q.
Qed.
End Values.

Lemma err_exists m p n (outputs : 'M[C]_(m, n)) (inputs : 'M[C]_(p, n)) (transfer : 'M[C]_(m, p)) ivs :
  (exists err, transfer_error outputs inputs transfer ivs = Some err) <-> forall v : 'rV[C]_p, v *m inputs = 0 -> v = 0.
Proof.
have H : (exists err, transfer_error outputs inputs transfer ivs = Some err) <-> row_free inputs.
  rewrite -gram_unit /transfer_error; case: ifP => _; split => //; [by eexists|by case].
split=> [/H F v Z|F]; first by apply: (row_free_inj F); rewrite Z mul0mx.
apply/H; rewrite -kermx_eq0; apply/eqP/row_matrixP => i; rewrite row0; apply: F; by rewrite -row_mul mulmx_ker row0.
Qed.

(** ** units *)
Definition escale (c : C) (a : errv C) : errv C := if a is Finite x then Finite (c * x) else a.

Lemma herm_diag q (d : 'rV[C]_q) : herm (diag_mx d) = diag_mx (map_mx cj d).
Proof. by apply/matrixP => a c; rewrite hermE !mxE eq_sym; case: eqP => [->|_]; rewrite ?mulr1n ?mulr0n ?rmorph0. Qed.

Lemma diag_unit q (d : 'rV[C]_q) : (forall j, d 0 j != 0) -> diag_mx d *m diag_mx (\row_j (d 0 j)^-1) = 1%:M.
Proof.
move=> H; apply/matrixP => a c; rewrite mul_diag_mx !mxE; case: eqP => [->|_]; last by rewrite !mulr0n mulr0.
by rewrite !mulr1n mulfV.
Qed.

Lemma err_units m p n (outputs : 'M[C]_(m, n)) (inputs : 'M[C]_(p, n)) (transfer : 'M[C]_(m, p)) ivs (c : 'rV[C]_m) (d : 'rV[C]_p) err :
  (forall i, c 0 i != 0) -> (forall j, d 0 j != 0) ->
  transfer_error outputs inputs transfer ivs = Some err ->
  exists err', transfer_error (diag_mx c *m outputs) (diag_mx d *m inputs) (diag_mx c *m transfer *m diag_mx (\row_j (d 0 j)^-1)) ivs = Some err' /\
    forall i j, err' i j = escale (`|c 0 i| / `|d 0 j|) (err i j).
Proof.
move=> Hc Hd E; have U := err_unit E.
have D1 := diag_unit Hd; have D2 := mulmx1C D1; set D := diag_mx d in D1 D2 *; set D' := diag_mx (\row_j (d 0 j)^-1) in D1 D2 *.
have UD : D \in unitmx by case: (mulmx1_unit D1).
have GD : gram (D *m inputs) = D *m gram inputs *m herm D by rewrite /gram herm_mul !mulmxA.
have U' : gram (D *m inputs) \in unitmx by rewrite GD !unitmx_mul UD U unitmx_herm UD.
have [err' E'] : exists err', transfer_error (diag_mx c *m outputs) (D *m inputs) (diag_mx c *m transfer *m D') ivs = Some err'.
  by rewrite /transfer_error U'; eexists.
exists err'; split=> // i j; rewrite (err_entry E') (err_entry E).
have -> : diag_mx c *m outputs - diag_mx c *m transfer *m D' *m (D *m inputs) = diag_mx c *m (outputs - transfer *m inputs).
  by rewrite mulmxBr; congr (_ - _); rewrite -!mulmxA; congr (_ *m (_ *m _)); rewrite mulmxA D2 mul1mx.
have -> : row i (diag_mx c *m (outputs - transfer *m inputs)) = c 0 i *: row i (outputs - transfer *m inputs).
  by apply/rowP => t; rewrite mxE mul_diag_mx !mxE.
rewrite sq_scale; set S := sq _; have S0 : 0 <= S := sq_ge0 _.
have G0 := g_gt0 j U; have G0' := g_gt0 j U'.
have IV : invmx (gram (D *m inputs)) = herm D' *m invmx (gram inputs) *m D'.
  have UU : gram (D *m inputs) \in unitmx := U'.
  apply: (can_inj (mulKmx UU)); rewrite mulmxV // GD -!mulmxA; apply/esym.
  rewrite [herm D *m _]mulmxA -herm_mul D2.
  have -> : herm (1%:M : 'M[C]_p) = 1%:M by apply/matrixP => a b; rewrite hermE !mxE eq_sym; case: eqP; rewrite ?rmorph1 ?rmorph0.
  by rewrite mul1mx (mulmxA inputs) -/(gram inputs) (mulKVmx U) D1.
have GE : invmx (gram (D *m inputs)) j j = `|d 0 j| ^- 2 * invmx (gram inputs) j j.
  by rewrite IV herm_diag mul_mx_diag mxE mul_diag_mx !mxE fmorphV /= mulrAC -invfM -normCKC.
have [C0 D0] : 0 < `|c 0 i| /\ 0 < `|d 0 j| by rewrite !normr_gt0.
have SM (x y : C) : 0 <= x -> 0 <= y -> sqrtC (x ^+ 2 * y) = x * sqrtC y.
  move=> Hx Hy; rewrite sqrtCM ?qualifE ?exprn_ge0 //; congr (_ * _); exact: sqrCK.
rewrite GE -exprVn !SM ?invr_ge0 ?normr_ge0 ?(ltW G0) //.
have QG : (sqrtC (invmx (gram inputs) j j) == 0) = false by apply/negbTE; rewrite sqrtC_eq0 lt0r_neq0.
set r := sqrtC (_ - _) / _; set h := sqrtC (invmx _ j j) in QG *; set s := sqrtC S; set k := _ - _%:R.
have CN : `|c 0 i| != 0 by exact: lt0r_neq0.
have DN : `|d 0 j|^-1 != 0 by rewrite invr_eq0 lt0r_neq0.
rewrite /ediv; case: (eqVneq r 0) => Hr.
  rewrite mulf_eq0 (negbTE CN) /=; case: (eqVneq s 0) => //= Hs.
  by rewrite mulf_eq0 (negbTE DN) QG.
case: (eqVneq k 0) => Hk.
  rewrite !mulf_eq0 invr_eq0 (negbTE Hr) !orbF (negbTE CN) /=; case: (eqVneq s 0) => //= Hs.
  by rewrite mulf_eq0 (negbTE DN) QG.
rewrite /= /escale; congr Finite; rewrite -!mulrA; congr (_ * _).
rewrite [RHS]mulrCA; congr (_ * _); rewrite [RHS]mulrCA; congr (_ * _); by rewrite mulrCA.
Qed.

(** ** the order of the windows *)
Lemma err_order m p n (outputs : 'M[C]_(m, n)) (inputs : 'M[C]_(p, n)) (transfer : 'M[C]_(m, p)) ivs ivs' (s : 'S_n) err :
  (forall i, size (ivs' i) = size (ivs i)) -> transfer_error outputs inputs transfer ivs = Some err ->
  exists err', transfer_error (col_perm s outputs) (col_perm s inputs) transfer ivs' = Some err' /\ forall i j, err' i j = err i j.
Proof.
move=> Hs E; have U := err_unit E.
have GP : gram (col_perm s inputs) = gram inputs.
  apply/matrixP => a b; rewrite !mxE (reindex_inj (@perm_inj _ s^-1)) /=; apply: eq_bigr => t _; by rewrite !mxE permKV.
have [err' E'] : exists err', transfer_error (col_perm s outputs) (col_perm s inputs) transfer ivs' = Some err'.
  by rewrite /transfer_error GP U; eexists.
exists err'; split=> // i j; rewrite (err_entry E') (err_entry E) GP Hs; congr (emul (ediv (ediv (Finite (sqrtC _)) _) _) _).
rewrite /sq (reindex_inj (@perm_inj _ s^-1)) /=; apply: eq_bigr => t _; rewrite !mxE permKV; congr (`|_ - _| ^+ 2).
by apply: eq_bigr => k _; rewrite !mxE permKV.
Qed.
End Err.
