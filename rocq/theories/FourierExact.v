(** Window parameters in exact arithmetic. *)
From Coq Require Import QArith Qcanon Qround Lqa.
From Verif Require Import Base BaseLemmas Arith OrdLaws QcLemmas FourierModel SpecFourier FourierProofs.
Open Scope nat_scope.

Lemma half_eq : @nhalf QA = Q2Qc (1 # 2).
Proof. apply Qc_is_canon. reflexivity. Qed.

Lemma ceil_iff x z : Qcceil x = z <-> (ZtoQc (z - 1) < x /\ x <= ZtoQc z)%Qc.
Proof.
  rewrite <- Qcceil_le, <- Qcceil_lt. lia.
Qed.
Lemma floor_iff x z : Qcfloor x = z <-> (ZtoQc z <= x /\ x < ZtoQc (z + 1))%Qc.
Proof. rewrite <- Qcfloor_le, <- Qcfloor_lt. lia. Qed.

Lemma div_lt_iff a x r : pos r -> (a < x / r)%Qc <-> (a * r < x)%Qc.
Proof.
  intros P. rewrite <- (div_mul r x P) at 2. split; intros H; apply Qcnot_le_lt; intros E.
  - apply (proj1 (mul_le_iff r _ _ P)) in E. apply (Qcle_not_lt _ _ E H).
  - apply (proj2 (mul_le_iff r _ _ P)) in E. apply (Qcle_not_lt _ _ E H).
Qed.
Lemma div_le_iff a x r : pos r -> (x / r <= a)%Qc <-> (x <= a * r)%Qc.
Proof. intros P. rewrite <- (div_mul r x P) at 2. symmetry. apply mul_le_iff, P. Qed.

Lemma trunc_pos (x : Qc) z : (0 < z)%Z -> @ntrunc QA x = Ok z <-> (ZtoQc z <= x /\ x < ZtoQc (z + 1))%Qc.
Proof.
  intros Hz. unfold ntrunc. cbn [QA nltb nzero nceil nfloor]. destruct (Qcltb x (Q2Qc 0)) eqn:E.
  - apply Qcltb_lt in E. split.
    + intros H. injection H as H. apply ceil_iff in H as (H & _).
      assert (ZtoQc 0 <= ZtoQc (z - 1))%Qc by (apply ZtoQc_le; lia). rewrite ZtoQc_0 in *. exfalso. qlra.
    + intros (H & _). assert (ZtoQc 0 <= ZtoQc z)%Qc by (apply ZtoQc_le; lia). rewrite ZtoQc_0 in *. exfalso. qlra.
  - rewrite <- floor_iff. split; [intros [= H]; exact H|intros ->; reflexivity].
Qed.

Lemma trunc_total (x : Qc) : exists z, @ntrunc QA x = Ok z.
Proof. unfold ntrunc. cbn [QA nltb nzero nceil nfloor]. destruct (Qcltb x (Q2Qc 0)); eauto. Qed.

(** the truncated shift has the sign of the length *)
Lemma trunc_nonpos (x : Qc) z : @ntrunc QA x = Ok z -> (x <= Q2Qc 0)%Qc -> (z <= 0)%Z.
Proof.
  unfold ntrunc. cbn [QA nltb nzero nceil nfloor]. rewrite <- ZtoQc_0. destruct (Qcltb x (ZtoQc 0)) eqn:E; intros [= <-] Hx.
  - apply Qcceil_le. exact Hx.
  - assert (Qcfloor x < 1)%Z; [|lia]. apply Qcfloor_lt. assert (ZtoQc 0 < ZtoQc 1)%Qc by (apply ZtoQc_lt; lia). qlra.
Qed.

Lemma discrete_window_spec size nf Nper ov Nw Lw shift :
  @discrete_window QA size nf Nper ov = Ok (Nw, Lw, shift) <-> window_params size nf Nper ov Nw Lw shift.
Proof.
  split.
  - intros H. pose proof (discrete_window_pos _ _ _ _ _ _ _ H) as (Hs0 & Hnw & H1).
    unfold discrete_window in H. cbn [QA nleb nltb nzero n1 nceil ndiv nmul nsub nofZ] in H. rewrite half_eq in H.
    apply bind_ok in H as ([] & Ho & H). apply check_ok, andb_true_iff in Ho as (Ho1 & Ho2). apply Qcleb_le in Ho1, Ho2.
    apply bind_ok in H as ([] & Hf & H). apply check_ok, andb_true_iff in Hf as (Hf1 & Hf2). apply Qcltb_lt in Hf1. apply Qcleb_le in Hf2.
    assert (P : pos nf) by exact Hf1.
    apply bind_ok in H as (L & HL & H). injection HL as HL. apply ceil_iff in HL as (HL1 & HL2).
    apply (div_lt_iff _ _ _ P) in HL1. apply (div_le_iff _ _ _ P) in HL2.
    apply bind_ok in H as (sh & Hsh & H).
    destruct (Z.eqb_spec sh 0); [destruct (0 <? _)%Z; discriminate|].
    destruct (Z.ltb_spec ((Z.of_nat size - L) / sh) 1); [discriminate|]. injection H as E1 E2 E3. subst L sh.
    assert (Hpos : (0 < shift)%Z).
    { destruct (Z_lt_le_dec 0 shift) as [|Hneg]; [assumption|exfalso].
      assert (Hd : (Z.of_nat size - Lw = shift * Nw + (Z.of_nat size - Lw) mod shift)%Z) by (rewrite Hnw; apply Z.div_mod; exact Hs0).
      pose proof (Z.mod_neg_bound (Z.of_nat size - Lw) shift ltac:(lia)).
      assert (shift * Nw <= shift * 1)%Z by (apply Z.mul_le_mono_nonpos_l; lia).
      assert (HLw : (0 < Lw)%Z) by lia.
      assert (Hx : (Q2Qc 0 <= ZtoQc Lw * (Q2Qc 1 - ov))%Qc).
      { assert (0 <= ZtoQc Lw)%Qc by (apply (ZtoQc_le 0); lia). assert (Q2Qc 0 <= Q2Qc 1 - ov)%Qc by qlra.
        replace (Q2Qc 0) with (0 * (Q2Qc 1 - ov))%Qc by ring. apply Qcmult_le_compat_r; assumption. }
      unfold ntrunc in Hsh. cbn [QA nltb nzero nceil nfloor] in Hsh.
      destruct (Qcltb (ZtoQc Lw * (Q2Qc 1 - ov)) (Q2Qc 0)) eqn:E.
      - apply Qcltb_lt in E. apply (Qcle_not_lt _ _ Hx E).
      - injection Hsh as Hsh. apply floor_iff in Hsh as (_ & Hsh). assert (ZtoQc (shift + 1) <= ZtoQc 0)%Qc by (apply ZtoQc_le; lia).
        rewrite ZtoQc_0 in *. generalize dependent (ZtoQc Lw * (Q2Qc 1 - ov))%Qc. intros x Hx E Hsh. qlra. }
    apply (trunc_pos _ _ Hpos) in Hsh.
    split; [split; assumption|split; assumption|split; assumption|exact Hsh|exact Hpos| |exact H1].
    assert (Hd : (Z.of_nat size - Lw = shift * Nw + (Z.of_nat size - Lw) mod shift)%Z) by (rewrite Hnw; apply Z.div_mod; exact Hs0).
    pose proof (Z.mod_pos_bound (Z.of_nat size - Lw) shift Hpos). nia.
  - intros [(Ho1 & Ho2) (Hf1 & Hf2) (HL1 & HL2) Hsh Hpos Hc H1].
    assert (P : pos nf) by exact Hf1.
    unfold discrete_window. cbn [QA nleb nltb nzero n1 nceil ndiv nmul nsub nofZ]. rewrite half_eq.
    rewrite (proj2 (Qcleb_le _ _) Ho1), (proj2 (Qcleb_le _ _) Ho2), (proj2 (Qcltb_lt _ _) Hf1), (proj2 (Qcleb_le _ _) Hf2). cbn [andb check bind].
    assert (EL : Qcceil (Nper / nf) = Lw) by (apply ceil_iff; split; [apply (div_lt_iff _ _ _ P), HL1|apply (div_le_iff _ _ _ P), HL2]).
    rewrite EL. rewrite (proj2 (trunc_pos _ _ Hpos) Hsh). cbn [bind]. destruct (Z.eqb_spec shift 0); [lia|].
    assert (EN : ((Z.of_nat size - Lw) / shift = Nw)%Z).
    { symmetry. apply (Z.div_unique_pos _ _ _ (Z.of_nat size - Lw - Nw * shift)%Z); nia. }
    rewrite EN. destruct (Z.ltb_spec Nw 1); [lia|reflexivity].
Qed.

Lemma Qc_total_le (x y : Qc) : {(x <= y)%Qc} + {(y < x)%Qc}.
Proof. destruct (Qclt_le_dec y x); auto. Qed.

(** how discrete_window fails *)
Lemma discrete_window_assert size nf Nper ov :
  @discrete_window QA size nf Nper ov = Err AssertionError <-> ~ ((Q2Qc 0 <= ov /\ ov <= Q2Qc 1) /\ (Q2Qc 0 < nf /\ nf <= Q2Qc (1 # 2)))%Qc.
Proof.
  unfold discrete_window. cbn [QA nleb nltb nzero n1 nceil ndiv nmul nsub nofZ]. rewrite half_eq.
  destruct (Qcleb (Q2Qc 0) ov && Qcleb ov (Q2Qc 1)) eqn:E1.
  - apply andb_true_iff in E1 as (Ea & Eb). apply Qcleb_le in Ea, Eb. cbn [check bind].
    destruct (Qcltb (Q2Qc 0) nf && Qcleb nf (Q2Qc (1 # 2))) eqn:E2.
    + apply andb_true_iff in E2 as (Ec & Ed). apply Qcltb_lt in Ec. apply Qcleb_le in Ed. cbn [check bind]. split; [|intuition].
      intros H. exfalso. destruct (trunc_total (ZtoQc (Qcceil (Nper / nf)) * (Q2Qc 1 - ov))%Qc) as (z & Hz). rewrite Hz in H. cbn [bind] in H.
      destruct (z =? 0)%Z; [destruct (0 <? _)%Z; discriminate|]. destruct (_ <? 1)%Z; discriminate.
    + cbn [check bind]. split; [|reflexivity]. intros _ (_ & (Hc & Hd)). apply Qcltb_lt in Hc. apply Qcleb_le in Hd. rewrite Hc, Hd in E2. discriminate.
  - cbn [check bind]. split; [|reflexivity]. intros _ ((Ha & Hb) & _). apply Qcleb_le in Ha, Hb. rewrite Ha, Hb in E1. discriminate.
Qed.

(** for given in-range parameters: the length and the shift exist, and it
    succeeds exactly when the shift is positive and [size] reaches [Lw + shift] *)
Lemma discrete_window_outcome size nf Nper ov :
  (Q2Qc 0 <= ov /\ ov <= Q2Qc 1)%Qc -> (Q2Qc 0 < nf /\ nf <= Q2Qc (1 # 2))%Qc ->
  exists Lw shift : Z, (ZtoQc (Lw - 1) * nf < Nper /\ Nper <= ZtoQc Lw * nf)%Qc /\
    (ZtoQc shift <= ZtoQc Lw * (Q2Qc 1 - ov) /\ ZtoQc Lw * (Q2Qc 1 - ov) < ZtoQc (shift + 1))%Qc /\
    ((exists Nw, @discrete_window QA size nf Nper ov = Ok (Nw, Lw, shift)) <-> (0 < shift /\ Lw + shift <= Z.of_nat size)%Z) /\
    (~ (0 < shift /\ Lw + shift <= Z.of_nat size)%Z -> exists e, @discrete_window QA size nf Nper ov = Err e).
Proof.
  intros Ho Hf. assert (P : pos nf) by exact (proj1 Hf).
  set (Lw := Qcceil (Nper / nf)). set (shift := Qcfloor (ZtoQc Lw * (Q2Qc 1 - ov))). exists Lw, shift.
  assert (HL : (ZtoQc (Lw - 1) * nf < Nper /\ Nper <= ZtoQc Lw * nf)%Qc).
  { destruct (proj1 (ceil_iff (Nper / nf) Lw) eq_refl) as (H1 & H2). split; [apply (div_lt_iff _ _ _ P), H1|apply (div_le_iff _ _ _ P), H2]. }
  assert (Hsh : (ZtoQc shift <= ZtoQc Lw * (Q2Qc 1 - ov) /\ ZtoQc Lw * (Q2Qc 1 - ov) < ZtoQc (shift + 1))%Qc) by (apply floor_iff; reflexivity).
  assert (Hiff : (exists Nw, @discrete_window QA size nf Nper ov = Ok (Nw, Lw, shift)) <-> (0 < shift /\ Lw + shift <= Z.of_nat size)%Z).
  { split.
    - intros (Nw & H). apply discrete_window_spec in H as [_ _ _ _ Hp Hc H1]. split; [exact Hp|nia].
    - intros (Hp & Hz). exists ((Z.of_nat size - Lw) / shift)%Z. apply discrete_window_spec.
      pose proof (Z.div_mod (Z.of_nat size - Lw) shift ltac:(lia)). pose proof (Z.mod_pos_bound (Z.of_nat size - Lw) shift Hp).
      split; [exact Ho|exact Hf|exact HL|exact Hsh|exact Hp|nia|]. apply Z.div_le_lower_bound; lia. }
  split; [exact HL|]. split; [exact Hsh|]. split; [exact Hiff|].
  intros Hn. destruct (@discrete_window QA size nf Nper ov) as [[[Nw L'] s']|e] eqn:E; [exfalso|eauto].
  apply discrete_window_spec in E. pose proof E as [_ _ HL' Hsh' Hp Hc H1].
  assert (EL : L' = Lw). { unfold Lw. symmetry. apply ceil_iff. split; [apply (div_lt_iff _ _ _ P), (proj1 HL')|apply (div_le_iff _ _ _ P), (proj2 HL')]. }
  subst L'. assert (Es : s' = shift) by (unfold shift; symmetry; apply floor_iff; exact Hsh'). subst s'.
  apply Hn, Hiff. exists Nw. reflexivity.
Qed.

(** a call with too few periods or too short a signal never yields windows *)
Lemma params_length_pos size nf Nper ov Nw Lw shift : window_params size nf Nper ov Nw Lw shift -> (0 < Lw)%Z /\ (Q2Qc 0 < Nper)%Qc.
Proof.
  intros [Ho Hf HL Hsh Hp Hc H1]. 
  assert (HLw : (0 < Lw)%Z).
  { destruct (Z_lt_le_dec 0 Lw) as [|Hn]; [assumption|exfalso].
    assert (Hx : (ZtoQc Lw * (Q2Qc 1 - ov) <= Q2Qc 0)%Qc).
    { assert (ZtoQc Lw <= 0)%Qc by (apply (ZtoQc_le Lw 0); lia). assert (Q2Qc 0 <= Q2Qc 1 - ov)%Qc by (destruct Ho; qlra).
      replace (Q2Qc 0) with (0 * (Q2Qc 1 - ov))%Qc by ring. apply Qcmult_le_compat_r; assumption. }
    assert (ZtoQc 1 <= ZtoQc shift)%Qc by (apply ZtoQc_le; lia). destruct Hsh as (Hsh & _). rewrite ZtoQc_1 in *.
    generalize dependent (ZtoQc Lw * (Q2Qc 1 - ov))%Qc. intros x Hsh Hx. qlra. }
  split; [exact HLw|]. destruct HL as (HL & _). apply Qcle_lt_trans with (2 := HL).
  replace (Q2Qc 0) with (0 * nf)%Qc by ring. apply Qcmult_le_compat_r; [apply (ZtoQc_le 0); lia|apply Qclt_le_weak, (proj1 Hf)].
Qed.

(** a signal holding exactly one window is rejected *)
Lemma one_window_rejected size nf Nper ov Lw shift :
  (Q2Qc 0 <= ov /\ ov <= Q2Qc 1)%Qc -> (Q2Qc 0 < nf /\ nf <= Q2Qc (1 # 2))%Qc ->
  (ZtoQc (Lw - 1) * nf < Nper /\ Nper <= ZtoQc Lw * nf)%Qc ->
  (ZtoQc shift <= ZtoQc Lw * (Q2Qc 1 - ov) /\ ZtoQc Lw * (Q2Qc 1 - ov) < ZtoQc (shift + 1))%Qc ->
  (Lw <= Z.of_nat size < Lw + shift)%Z -> @discrete_window QA size nf Nper ov = Err ValueError.
Proof.
  intros (Ho1 & Ho2) (Hf1 & Hf2) (HL1 & HL2) Hsh Hz. assert (P : pos nf) by exact Hf1.
  unfold discrete_window. cbn [QA nleb nltb nzero n1 nceil ndiv nmul nsub nofZ]. rewrite half_eq.
  rewrite (proj2 (Qcleb_le _ _) Ho1), (proj2 (Qcleb_le _ _) Ho2), (proj2 (Qcltb_lt _ _) Hf1), (proj2 (Qcleb_le _ _) Hf2). cbn [andb check bind].
  assert (EL : Qcceil (Nper / nf) = Lw) by (apply ceil_iff; split; [apply (div_lt_iff _ _ _ P), HL1|apply (div_le_iff _ _ _ P), HL2]).
  rewrite EL. rewrite (proj2 (trunc_pos _ shift ltac:(lia)) Hsh). cbn [bind]. destruct (Z.eqb_spec shift 0); [lia|].
  rewrite Z.div_small by lia. reflexivity.
Qed.

(** success of time_to_freq in exact arithmetic *)
Lemma time_to_freq_ok {V C} tone cmul cdot (data : list (list V)) fs f Nper ov (w : window_arg C) Lw shift :
  (exists r Nw, time_to_freq (A := QA) tone cmul cdot data fs f Nper ov w = Ok (r, (Nw, Lw, shift))) <->
  data <> [] /\ fs <> Q2Qc 0 /\ exists size nw o, (forall y, In y data -> length y = size) /\
    window_params size (f / fs)%Qc Nper ov nw (Z.of_nat Lw) (Z.of_nat shift) /\ asked w Lw o.
Proof.
  split.
  - intros (r & Nw & H). apply time_to_freq_spec in H as (size & nw & Hne & Hl & Hfs & Hdw & _ & o & x & Ho & _).
    split; [exact Hne|]. split.
    + intros ->. cbn [QA neqb nzero] in Hfs. unfold Qceqb in Hfs. rewrite (proj2 (Qeq_bool_iff _ _)) in Hfs by reflexivity. discriminate.
    + exists size, nw, o. split; [exact Hl|]. split; [apply discrete_window_spec; exact Hdw|exact Ho].
  - intros (Hne & Hfs & size & nw & o & Hl & Hwp & Ho). pose proof Hwp as [_ _ _ _ Hp Hc H1].
    pose proof (kernel_taper tone cmul (ndiv QA f fs) Lw o (asked_length _ _ _ Ho)) as Hx. set (x := kernel tone cmul (ndiv QA f fs) Lw o) in *.
    assert (Hex : forall data, (forall y, In y data -> length y = size) -> exists r, Forall2 (coeffs_of cdot x Lw shift) data r).
    { clear Hl Hne. intros dat. induction dat as [|y dat IH]; intros Hd; [exists []; constructor|].
      destruct IH as (r & Hr); [intros z Hz; apply Hd; right; exact Hz|].
      destruct (channel_coeffs_ok cdot x (Z.of_nat Lw) (Z.of_nat shift) y) as (l & _ & Hcl); [rewrite (Hd y (or_introl eq_refl)); nia|lia|].
      rewrite !Nat2Z.id in Hcl. exists (l :: r). constructor; assumption. }
    destruct (Hex data Hl) as (r & Hr). exists r, (Z.to_nat (nw + 1)). apply time_to_freq_spec.
    exists size, nw. split; [exact Hne|]. split; [exact Hl|]. split.
    + cbn [QA neqb nzero]. destruct (Qceqb fs (Q2Qc 0)) eqn:E; [|reflexivity]. exfalso. apply Hfs, Qc_is_canon, Qeq_bool_iff, E.
    + split; [apply discrete_window_spec; exact Hwp|]. split; [lia|]. exists o, x. split; [exact Ho|]. split; [exact Hx|exact Hr].
Qed.
