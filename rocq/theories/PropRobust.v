(** Robust weight formulas (C49-C51, C79, C80), real arithmetic with nan and
    infinities. Residuals are complex numbers or nan ([None]). *)
From Coq Require Import Reals Lra.
From Coquelicot Require Import Complex.
From Verif Require Import Base BaseLemmas RobustModel SpecRobust RobustProofs RobustWeights RobustSamples.
Open Scope R_scope.

(** ** C49: Huber weights *)
Theorem C49_huber : forall alpha r s, 0 < alpha -> scale_of r s -> 0 < s ->
  length (huber alpha r) = length r /\
  forall i z, nth_error r i = Some (Some z) ->
  exists v, nth_error (huber alpha r) i = Some (Fin v) /\ 0 < v <= 1 /\
  (Cmod z <= alpha * s -> v = 1) /\ (alpha * s < Cmod z -> v * Cmod z = alpha * s /\ v < 1).
Proof.
  intros alpha r s Ha Hs H. split; [apply huber_length|]. intros i z E. rewrite (huber_value alpha r s i z Hs E).
  destruct (huber_pos alpha s (Cmod z) Ha H (Cmod_ge_0 z)) as (v & -> & R). exists v. auto.
Qed.
Print Assumptions C49_huber.

Theorem C49_decreasing : forall alpha r s i j z z' v v', 0 < alpha -> scale_of r s -> 0 < s ->
  nth_error r i = Some (Some z) -> nth_error r j = Some (Some z') ->
  nth_error (huber alpha r) i = Some (Fin v) -> nth_error (huber alpha r) j = Some (Fin v') ->
  Cmod z <= Cmod z' -> v' <= v.
Proof.
  intros alpha r s i j z z' v v' Ha Hs H Ei Ej Vi Vj L. destruct (C49_huber alpha r s Ha Hs H) as (_ & Q).
  destruct (Q i z Ei) as (u & Eu & B & B1 & B2), (Q j z' Ej) as (u' & Eu' & B' & B1' & B2').
  rewrite Vi in Eu. rewrite Vj in Eu'. injection Eu as <-. injection Eu' as <-.
  destruct (Rle_dec (Cmod z) (alpha * s)) as [L1|L1]; [rewrite (B1 L1); lra|].
  destruct (B2 ltac:(lra)) as [X _], (B2' ltac:(lra)) as [X' _]. assert (0 < alpha * s) by nra. nra.
Qed.
Print Assumptions C49_decreasing.

(** with a zero scale every non-zero residual is rejected, and a zero residual gives nan *)
Theorem C49_zero_scale : forall alpha r, scale_of r 0 ->
  forall i z, nth_error r i = Some (Some z) ->
  (z <> RtoC 0 -> nth_error (huber alpha r) i = Some (Fin 0)) /\ (z = RtoC 0 -> nth_error (huber alpha r) i = Some NaN).
Proof.
  intros alpha r Hs i z E. rewrite (huber_value alpha r 0 i z Hs E), (huber_zero alpha (Cmod z) (Cmod_ge_0 z)).
  split; intros Hz; destruct (Req_EM_T (Cmod z) 0) as [E'|N]; try reflexivity.
  - apply Cmod_eq_0 in E'. contradiction.
  - subst z. rewrite Cmod_0 in N. congruence.
Qed.
Print Assumptions C49_zero_scale.

Theorem C49_nan : forall alpha r i, nth_error r i = Some None -> nth_error (huber alpha r) i = Some NaN.
Proof. exact huber_nan. Qed.
Print Assumptions C49_nan.

Example C49_nonvacuous : scale_of sample (100000 / 44845) /\ 3 / 2 * (100000 / 44845) < Cmod (RtoC 4).
Proof. split; [exact sample_scale|]. rewrite Cmod_R, Rabs_pos_eq; lra. Qed.

Example C49_zero_scale_nonvacuous : nth_error (huber (3 / 2) flat) 0 = Some (Fin 0) /\ nth_error (huber (3 / 2) flat) 2 = Some NaN.
Proof.
  split.
  - refine (proj1 (C49_zero_scale (3 / 2) flat flat_scale 0 (RtoC 1) eq_refl) _). intros H. injection H. lra.
  - refine (proj2 (C49_zero_scale (3 / 2) flat flat_scale 2 (RtoC 0) eq_refl) eq_refl).
Qed.

(** ** C50: Thomson weights, for the stored scale *)
Theorem C50_thomson : forall xi r s, match xi with Some x => 0 < x | None => True end -> 0 < s ->
  length (thomson xi (Some s) r) = length r /\
  forall i z, nth_error r i = Some (Some z) ->
  exists v, nth_error (thomson xi (Some s) r) i = Some (Fin v) /\ 0 < v <= 1 /\ (z = RtoC 0 -> v = 1) /\
  (forall j z' v', nth_error r j = Some (Some z') -> nth_error (thomson xi (Some s) r) j = Some (Fin v') -> Cmod z < Cmod z' -> v' < v).
Proof.
  intros xi r s Hxi Hs. split; [apply thomson_length|]. intros i z E.
  assert (P : 0 < thomson_xi xi (length r)).
  { apply thomson_xi_pos; [|exact Hxi]. destruct r; [destruct i; discriminate|simpl; lia]. }
  rewrite (thomson_value xi r s i z E), (thomson_pos _ s (Cmod z) Hs). set (x := thomson_xi xi (length r)) in *.
  assert (Q : 0 <= Cmod z / s) by (apply Rmult_le_pos; [apply Cmod_ge_0|apply Rlt_le, Rinv_0_lt_compat, Hs]).
  exists (tw x (Cmod z / s)). split; [reflexivity|]. split; [split; [apply tw_pos|apply tw_le1; assumption]|]. split.
  - intros ->. rewrite Cmod_0. unfold Rdiv. rewrite Rmult_0_l. apply tw_0.
  - intros j z' v' Ej. rewrite (thomson_value xi r s j z' Ej), (thomson_pos _ s (Cmod z') Hs). fold x. intros V L. injection V as <-.
    apply tw_decr; [exact P|]. apply Rmult_lt_compat_r; [apply Rinv_0_lt_compat, Hs|exact L].
Qed.
Print Assumptions C50_thomson.

(** the value, for the threshold [t] given, or computed from the number of rows *)
Theorem C50_value : forall xi r s i z, 0 < s -> nth_error r i = Some (Some z) ->
  exists t, match xi with Some x => t = x | None => 0 < t /\ t * t = 2 * ln (2 * INR (length r)) end /\
  nth_error (thomson xi (Some s) r) i = Some (Fin (exp (exp (- (t * t)) - exp (t * (Cmod z / s - t))))).
Proof. exact thomson_formula. Qed.
Print Assumptions C50_value.

(** no weight without a residual or without a scale *)
Theorem C50_nan : forall xi s r i x, nth_error r i = Some x -> s = None \/ x = None -> nth_error (thomson xi s r) i = Some NaN.
Proof. exact thomson_nan. Qed.
Print Assumptions C50_nan.

(** a zero scale rejects every non-zero residual and gives nan for the others *)
Theorem C50_zero_scale : forall xi r i z, match xi with Some x => 0 < x | None => True end ->
  nth_error r i = Some (Some z) ->
  (z <> RtoC 0 -> nth_error (thomson xi (Some 0) r) i = Some (Fin 0)) /\ (z = RtoC 0 -> nth_error (thomson xi (Some 0) r) i = Some NaN).
Proof.
  intros xi r i z Hxi E.
  assert (P : 0 < thomson_xi xi (length r)).
  { apply thomson_xi_pos; [|exact Hxi]. destruct r; [destruct i; discriminate|simpl; lia]. }
  rewrite (thomson_value xi r 0 i z E), (thomson_zero _ (Cmod z) P (Cmod_ge_0 z)).
  split; intros Hz; destruct (Req_EM_T (Cmod z) 0) as [E'|N]; try reflexivity.
  - apply Cmod_eq_0 in E'. contradiction.
  - subst z. rewrite Cmod_0 in N. congruence.
Qed.
Print Assumptions C50_zero_scale.

Example C50_nonvacuous : exists s, mad_scale (vnorm sample) = Some s /\ 0 < s /\ Cmod (RtoC 2) < Cmod (RtoC 4).
Proof.
  exists (100000 / 44845). split; [exact (scale_spec _ _ sample_scale)|]. rewrite !Cmod_R, !Rabs_pos_eq; lra.
Qed.

(** ** C51: the leverage factor *)
Theorem C51_value : forall lower khi y, 0 < lower -> 0 < y ->
  hat_factor lower khi y = Fin (exp (exp (- (khi * khi)) - exp (khi * (y - khi))) * exp (exp (- (ln lower * ln lower)) - exp (ln lower * (ln y - ln lower)))).
Proof. exact hat_formula. Qed.
Print Assumptions C51_value.

Theorem C51_bound : forall lower khi y, 0 < lower -> 0 < khi -> 0 < y ->
  exists v, hat_factor lower khi y = Fin v /\ 0 < v < exp (exp (- (ln lower * ln lower))).
Proof. exact hat_bound. Qed.
Print Assumptions C51_bound.

(** rows without leverage are rejected if lower < 1; the factor is nan if lower = 1 *)
Theorem C51_no_leverage : forall khi, (forall lower, 0 < lower < 1 -> hat_factor lower khi 0 = Fin 0) /\ hat_factor 1 khi 0 = NaN.
Proof. intros khi. split; [intros lower H; apply hat_zero; exact H|apply hat_zero_one]. Qed.
Print Assumptions C51_no_leverage.

(** the factor exceeds one exactly when ... *)
Theorem C51_exceeds_one_iff : forall lower khi y, 0 < lower -> 0 < y ->
  exists v, hat_factor lower khi y = Fin v /\
  (1 < v <-> exp (- (khi * khi)) * (exp (khi * y) - 1) < exp (- (ln lower * ln lower)) * (1 - exp (ln lower * ln y))).
Proof. exact hat_exceeds. Qed.
Print Assumptions C51_exceeds_one_iff.

(** ... which happens for rows of twice the mean leverage, for every lower threshold
    below one and all large enough upper thresholds *)
Theorem C51_at_most_one_refuted : forall lower, 0 < lower < 1 -> exists khi0, 0 < khi0 /\ forall khi, khi0 <= khi ->
  exists v, hat_factor lower khi 2 = Fin v /\ 1 < v.
Proof. exact hat_exceeds_ex. Qed.
Print Assumptions C51_at_most_one_refuted.

(** ** C79: the weights depend neither on the unit of the residuals nor on the
    order of the rows *)
Theorem C79_unit : forall alpha xi r c, c <> RtoC 0 ->
  let r' := map (option_map (Cmult c)) r in
  huber alpha r' = huber alpha r /\ thomson xi (mad_scale (vnorm r')) r' = thomson xi (mad_scale (vnorm r)) r.
Proof. intros alpha xi r c Hc r'. split; [exact (huber_rescale alpha r c Hc)|exact (thomson_rescale xi r c Hc)]. Qed.
Print Assumptions C79_unit.

Theorem C79_row_order : forall alpha xi s r r', Permutation r r' ->
  Permutation (combine r (huber alpha r)) (combine r' (huber alpha r')) /\
  Permutation (combine r (thomson xi s r)) (combine r' (thomson xi s r')).
Proof. intros alpha xi s r r' P. split; [exact (huber_perm alpha r r' P)|exact (thomson_perm xi s r r' P)]. Qed.
Print Assumptions C79_row_order.

Example C79_nonvacuous : Ci <> RtoC 0 /\ Permutation flat (rev flat).
Proof. split; [intros H; injection H; lra|apply Permutation_rev]. Qed.

(** ** C80: outliers do not move the scale. If more than half of the magnitudes
    are between a and b, the scale is at most (b - a) / 0.44845, whatever the rest. *)
Theorem C80_scale_bounded : forall r l s a b, numbers r l -> mostly_within (map Cmod l) a b -> scale_of r s ->
  0 <= s /\ s * (44845 / 100000) <= b - a.
Proof. exact scale_within. Qed.
Print Assumptions C80_scale_bounded.

(** in particular if more than half of the residuals have the same magnitude, no
    row at all keeps a weight *)
Theorem C80_equal_majority : forall alpha r l a, numbers r l -> mostly_within (map Cmod l) a a ->
  forall i w, nth_error (huber alpha r) i = Some w -> w = Fin 0 \/ w = NaN.
Proof.
  intros alpha r l a N W i w H.
  destruct (nth_error r i) as [x|] eqn:E; [|apply nth_error_None in E; rewrite <- (huber_length alpha) in E; apply nth_error_None in E; congruence].
  destruct x as [z|]; [|rewrite (huber_nan alpha r i E) in H; injection H as <-; right; reflexivity].
  destruct (scale_exists r) as (s & Hs); [exists z; eapply nth_error_In; exact E|].
  destruct (scale_within r l s a a N W Hs). assert (s = 0) by lra. subst s.
  rewrite (huber_value alpha r 0 i z Hs E), (huber_zero alpha (Cmod z) (Cmod_ge_0 z)) in H. injection H as <-.
  destruct (Req_EM_T (Cmod z) 0); auto.
Qed.
Print Assumptions C80_equal_majority.

Example C80_nonvacuous : numbers flat [RtoC 1; RtoC 1; RtoC 0] /\ mostly_within (map Cmod [RtoC 1; RtoC 1; RtoC 0]) 1 1.
Proof. split; [reflexivity|exact flat_mostly]. Qed.
