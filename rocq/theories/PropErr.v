(** The error of a transfer function (C88). *)
From mathcomp Require Import all_ssreflect all_fingroup all_algebra.
From Verif Require Import WlseModel WlseProofs ErrModel ErrProofs.
Set Implicit Arguments.
Unset Strict Implicit.
Unset Printing Implicit Defensive.
Import Order.POrderTheory GRing.Theory Num.Theory.
Local Open Scope ring_scope.

(** With more windows than inputs, and a window left: the squared error is the sum
    of the squared residuals, times n^2, divided by n - p, by the square of the
    number of windows left, and by the squared distance from the input to the
    combinations of the other inputs. *)
Theorem C88_value : forall (C : numClosedFieldType) m p n (outputs : 'M[C]_(m, n)) (inputs : 'M[C]_(p, n)) (transfer : 'M[C]_(m, p)) ivs err i j,
  transfer_error outputs inputs transfer ivs = Some err -> (p < n)%N -> (size (ivs i) < n)%N ->
  exists x dist2, err i j = Finite x /\ 0 <= x /\
    (forall v : 'rV[C]_p, v 0 j = 1 -> dist2 <= \sum_t `|(v *m inputs) 0 t| ^+ 2) /\
    (exists v : 'rV[C]_p, v 0 j = 1 /\ dist2 = \sum_t `|(v *m inputs) 0 t| ^+ 2) /\ 0 < dist2 /\
    x ^+ 2 * dist2 * (n - p)%:R * ((n - size (ivs i))%:R) ^+ 2 = n%:R ^+ 2 * \sum_t `|outputs i t - (transfer *m inputs) i t| ^+ 2.
Proof.
move=> C m p n outputs inputs transfer ivs err i j E Hp Hs; have U := err_unit E.
have [x [Ex [X0 X]]] := err_value E j Hp Hs; exists x, (invmx (gram inputs) j j)^-1.
have [D1 [v [V1 V2]]] := distance j U; do 4! [split => //]; first by exists v; split.
split; first by rewrite invr_gt0 g_gt0.
by rewrite X /sq; congr (_ * _); apply: eq_bigr => t _; rewrite !mxE.
Qed.
Print Assumptions C88_value.

(** It exists exactly when no input is a combination of the others, *)
Theorem C88_exists : forall (C : numClosedFieldType) m p n (outputs : 'M[C]_(m, n)) (inputs : 'M[C]_(p, n)) (transfer : 'M[C]_(m, p)) ivs,
  (exists err, transfer_error outputs inputs transfer ivs = Some err) <-> forall v : 'rV[C]_p, v *m inputs = 0 -> v = 0.
Proof. exact: err_exists. Qed.
Print Assumptions C88_exists.

(** and always when some estimate was found, from all windows or from some [f], with
    weights or without. *)
Theorem C88_after_estimate : forall (C : numClosedFieldType) m p n k (outputs : 'M[C]_(m, n)) (inputs : 'M[C]_(p, n)) (transfer : 'M[C]_(m, p)) ivs
    (f : 'I_k -> 'I_n) (x : 'cV[C]_k) w z,
  wlse (@conjC C) x (rowsub f inputs^T) w = Some z -> exists err, transfer_error outputs inputs transfer ivs = Some err.
Proof.
move=> C m p n k outputs inputs transfer ivs f x w z /estimate_free; rewrite trmxK => U; rewrite /transfer_error U; by eexists.
Qed.
Print Assumptions C88_after_estimate.

(** As many inputs as windows, or no window left: not a number for an exact relation,
    infinite otherwise. *)
Theorem C88_degenerate : forall (C : numClosedFieldType) m p n (outputs : 'M[C]_(m, n)) (inputs : 'M[C]_(p, n)) (transfer : 'M[C]_(m, p)) ivs err i j,
  transfer_error outputs inputs transfer ivs = Some err -> p = n \/ size (ivs i) = n ->
  err i j = if row i outputs == row i (transfer *m inputs) then NotNumber else Infinite.
Proof. by move=> C m p n outputs inputs transfer ivs err i j E; exact: (err_degenerate E). Qed.
Print Assumptions C88_degenerate.

(** In other units of the channels, the error of a coefficient is in the unit of the
    coefficient; *)
Theorem C88_units : forall (C : numClosedFieldType) m p n (outputs : 'M[C]_(m, n)) (inputs : 'M[C]_(p, n)) (transfer : 'M[C]_(m, p)) ivs
    (c : 'rV[C]_m) (d : 'rV[C]_p) err,
  (forall i, c 0 i != 0) -> (forall j, d 0 j != 0) -> transfer_error outputs inputs transfer ivs = Some err ->
  exists err', transfer_error (diag_mx c *m outputs) (diag_mx d *m inputs) (diag_mx c *m transfer *m diag_mx (\row_j (d 0 j)^-1)) ivs = Some err' /\
    forall i j, err' i j = if err i j is Finite x then Finite (`|c 0 i| / `|d 0 j| * x) else err i j.
Proof. exact: err_units. Qed.
Print Assumptions C88_units.

(** the order of the windows does not matter. *)
Theorem C88_window_order : forall (C : numClosedFieldType) m p n (outputs : 'M[C]_(m, n)) (inputs : 'M[C]_(p, n)) (transfer : 'M[C]_(m, p)) ivs ivs' (s : 'S_n) err,
  (forall i, size (ivs' i) = size (ivs i)) -> transfer_error outputs inputs transfer ivs = Some err ->
  exists err', transfer_error (col_perm s outputs) (col_perm s inputs) transfer ivs' = Some err' /\ forall i j, err' i j = err i j.
Proof. exact: err_order. Qed.
Print Assumptions C88_window_order.

(** One input equal to one in three windows, transfer one, the first window rejected *)
Section Example88.
Variable C : numClosedFieldType.
Let ones : 'rV[C]_3 := const_mx 1.
Let bump : 'rV[C]_3 := \row_t if t == 0 then 5%:R else 1.
Lemma ones_unit : gram ones \in unitmx.
Proof.
rewrite gram_unit -kermx_eq0; apply/eqP/row_matrixP => i; rewrite row0.
have : row i (kermx ones) *m ones = 0 by rewrite -row_mul mulmx_ker row0.
by move=> /rowP /(_ 0) H; apply/rowP => j; move: H; rewrite !ord1 mxE big_ord1 !mxE mulr1.
Qed.
Example C88_nonvacuous : exists err, transfer_error ones ones 1%:M (fun=> [:: 0%N]) = Some err /\ (1 < 3)%N.
Proof. by rewrite /transfer_error ones_unit; eexists. Qed.

(** Rejected windows do count in the residuals. *)
Lemma rejected_counts : exists err err' : 'I_1 -> 'I_1 -> errv C, transfer_error ones ones 1%:M (fun=> [:: 0%N]) = Some err /\
  transfer_error bump ones 1%:M (fun=> [:: 0%N]) = Some err' /\ (forall t : 'I_3, t != 0 -> bump 0 t = ones 0 t) /\
  err 0 0 = Finite 0 /\ err' 0 0 <> Finite 0.
Proof.
have [err E] : exists err, transfer_error ones ones (1%:M : 'M_1) (fun=> [:: 0%N]) = Some err by rewrite /transfer_error ones_unit; eexists.
have [err' E'] : exists err, transfer_error bump ones (1%:M : 'M_1) (fun=> [:: 0%N]) = Some err by rewrite /transfer_error ones_unit; eexists.
exists err, err'; split=> //; split=> //; split; first by move=> t /negbTE T; rewrite !mxE T.
have N3 : (3%:R : C) ^+ 2 != 0 by rewrite expf_neq0 // pnatr_eq0.
split.
- have [x [d [Ex [X0 [_ [_ [D X]]]]]]] := @C88_value _ _ _ _ _ _ _ _ _ 0 0 E isT isT.
  rewrite Ex; congr Finite; apply/eqP.
  have : x ^+ 2 * d * (3 - 1)%:R * (3 - 1)%:R ^+ 2 = 0.
    by rewrite X big1 ?mulr0 // => t _; rewrite mul1mx subrr normr0 expr0n.
  by move/eqP; rewrite !mulf_eq0 !pnatr_eq0 /= !orbF (negbTE (lt0r_neq0 D)) orbF orbb.
- have [x [d [Ex [X0 [_ [_ [D X]]]]]]] := @C88_value _ _ _ _ _ _ _ _ _ 0 0 E' isT isT.
  rewrite Ex => -[Z]; move: X; rewrite Z expr0n /= !mul0r => /esym/eqP; rewrite mulf_eq0 (negbTE N3) /=.
  rewrite mul1mx big_ord_recl big1 ?addr0 => [|t _]; last by rewrite !mxE subrr normr0 expr0n.
  rewrite expf_eq0 /= normr_eq0 !mxE /= subr_eq0 -[1]/(1%:R) eqr_nat; by [].
Qed.
End Example88.
Theorem C88_rejected_windows_refuted : forall C : numClosedFieldType,
  exists (outputs outputs' inputs : 'rV[C]_3) (transfer : 'M[C]_1) err err',
  transfer_error outputs inputs transfer (fun=> [:: 0%N]) = Some err /\ transfer_error outputs' inputs transfer (fun=> [:: 0%N]) = Some err' /\
  (forall t : 'I_3, t != 0 -> outputs' 0 t = outputs 0 t) /\ err' 0 0 <> err 0 0.
Proof.
move=> C; have [err [err' [E [E' [S [Z N]]]]]] := rejected_counts C.
by do 4 eexists; exists err, err'; do 3! [split; first eassumption]; rewrite Z.
Qed.
Print Assumptions C88_rejected_windows_refuted.
