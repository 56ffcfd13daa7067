(** The Fourier kernels over the complex numbers (Coquelicot's [C]). *)
From Coq Require Import Reals Lra QArith Qcanon Qreals.
From Coquelicot Require Import Complex.
From Verif Require Import Base BaseLemmas Arith OrdLaws QcLemmas SyncModel SpecSet FourierModel SpecFourier FourierProofs FourierExact.
Open Scope nat_scope.

(** a rational as a real number *)
Definition Qc2R (q : Qc) : R := Q2R (this q).
(** [exp(1j * t)] *)
Definition cis (t : R) : C := (cos t, sin t).

(** fourier_transform.py:72-73: entry [n] of [exp((-1j*2*pi*nf)*arange(Lw)) * (2/Lw)] *)
Definition tone (nf : num QA) (L n : nat) : C := (cis (- (2 * PI * Qc2R nf * INR n)) * RtoC (2 / INR L))%C.
(** numpy's dot of two vectors, complex samples *)
Definition cdot (x w : list C) : C := fold_right (fun p acc => (fst p * snd p + acc)%C) (RtoC 0) (combine x w).
Definition cmul : C -> C -> C := Cmult.

Fixpoint csum (f : nat -> C) (n : nat) : C := match n with 0 => RtoC 0 | S n => (csum f n + f n)%C end.

Lemma csum_ext f g n : (forall k, k < n -> f k = g k) -> csum f n = csum g n.
Proof. induction n as [|n IH]; intros H; simpl; [reflexivity|]. rewrite IH by (intros; apply H; lia). rewrite H by lia. reflexivity. Qed.
Lemma csum_lin a b f g n : csum (fun k => a * f k + b * g k)%C n = (a * csum f n + b * csum g n)%C.
Proof. induction n as [|n IH]; simpl; [ring|]. rewrite IH. ring. Qed.
Lemma csum_shift f n : csum f (S n) = (f 0 + csum (fun k => f (S k)) n)%C.
Proof. induction n as [|n IH]; [simpl; ring|]. change (csum f (S (S n))) with (csum f (S n) + f (S n))%C. rewrite IH. simpl. ring. Qed.

Lemma cdot_sum : forall (x w : list C) f, length x = length w ->
  (forall n u v, nth_error x n = Some u -> nth_error w n = Some v -> f n = (u * v)%C) -> cdot x w = csum f (length w).
Proof.
  intros x w. revert x. induction w as [|v w IH]; intros [|u x] f El H; try discriminate; [reflexivity|].
  unfold cdot. cbn [combine fold_right fst snd length]. fold (cdot x w). rewrite csum_shift, (H 0 u v eq_refl eq_refl). f_equal.
  apply IH; [simpl in El; lia|]. intros n u' v' Hu Hv. apply (H (S n)); assumption.
Qed.

Lemma cis_add a b : (cis a * cis b)%C = cis (a + b).
Proof. unfold cis, Cmult. simpl. rewrite cos_plus, sin_plus. f_equal; ring. Qed.
Lemma cis_0 : cis 0 = RtoC 1.
Proof. unfold cis. rewrite cos_0, sin_0. reflexivity. Qed.
Lemma cos_cis t : RtoC (cos t) = ((cis t + cis (- t)) / RtoC 2)%C.
Proof.
  unfold cis. rewrite cos_neg, sin_neg. unfold Cdiv, Cinv, Cplus, Cmult, RtoC. simpl. f_equal; field.
Qed.
Lemma cis_period (z : Z) : cis (2 * PI * IZR z) = RtoC 1.
Proof.
  unfold cis, RtoC. rewrite (Rmult_comm 2 PI), Rmult_assoc, (Rmult_comm PI). rewrite <- (mult_IZR 2 z).
  assert (Ho : sin (IZR (2 * z) * PI) = 0%R) by (apply sin_eq_0_1; eauto). rewrite Ho. f_equal.
  assert (Hh : (IZR (2 * z) * PI = 2 * (IZR z * PI))%R) by (rewrite mult_IZR; ring). rewrite Hh, cos_2a_sin.
  assert (H1 : sin (IZR z * PI) = 0%R) by (apply sin_eq_0_1; eauto). rewrite H1. ring.
Qed.
Lemma cis_neq_1 t : (0 < t < 2 * PI)%R -> cis (- t) <> RtoC 1.
Proof.
  intros Ht H. unfold cis, RtoC in H. injection H as Hc Hs. rewrite cos_neg in Hc.
  replace t with (2 * (t / 2))%R in Hc by field. rewrite cos_2a_sin in Hc.
  assert (Hp : (0 < sin (t / 2))%R) by (apply sin_gt_0; lra). nra.
Qed.
Lemma geometric t n : (csum (fun k => cis (t * INR k)) n * (cis t - RtoC 1))%C = (cis (t * INR n) - RtoC 1)%C.
Proof.
  induction n as [|n IH]; [simpl; rewrite Rmult_0_r, cis_0; ring|].
  simpl csum. rewrite Cmult_plus_distr_r, IH, S_INR, Rmult_plus_distr_l, Rmult_1_r, <- cis_add. ring.
Qed.
Lemma C_integral (a b : C) : (a * b)%C = RtoC 0 -> b <> RtoC 0 -> a = RtoC 0.
Proof. intros H Hb. rewrite <- (Cmult_1_r a), <- (Cinv_r b Hb), Cmult_assoc, H. ring. Qed.

(** ** Linearity *)
(** [w] is the combination [a*u + b*v], entry by entry *)
Definition lincomb (a b : C) (u v w : list C) : Prop :=
  length u = length w /\ length v = length w /\
  forall n x y, nth_error u n = Some x -> nth_error v n = Some y -> nth_error w n = Some (a * x + b * y)%C.
(** the same for lists of channels *)
Definition lincombs (a b : C) (us vs ws : list (list C)) : Prop :=
  length us = length ws /\ length vs = length ws /\
  forall c u v, nth_error us c = Some u -> nth_error vs c = Some v -> exists w, nth_error ws c = Some w /\ lincomb a b u v w.

Lemma cdot_lin a b x u v w : length x = length w -> lincomb a b u v w -> cdot x w = (a * cdot x u + b * cdot x v)%C.
Proof.
  intros Ex (Eu & Ev & H).
  set (f := fun n => match nth_error x n, nth_error u n with Some p, Some q => (p * q)%C | _, _ => RtoC 0 end).
  set (g := fun n => match nth_error x n, nth_error v n with Some p, Some q => (p * q)%C | _, _ => RtoC 0 end).
  rewrite (cdot_sum x u f), (cdot_sum x v g); [|congruence|unfold g; intros n p q -> ->; reflexivity|congruence|unfold f; intros n p q -> ->; reflexivity].
  rewrite (cdot_sum x w (fun n => a * f n + b * g n)%C); [|congruence|].
  - rewrite csum_lin, Eu, Ev. reflexivity.
  - intros n p q Hp Hq. assert (Hn : n < length w) by (apply nth_error_Some; congruence).
    destruct (nth_error u n) as [y|] eqn:E1; [|apply nth_error_None in E1; lia].
    destruct (nth_error v n) as [z|] eqn:E2; [|apply nth_error_None in E2; lia].
    unfold f, g. rewrite Hp, E1, E2. rewrite (H n y z E1 E2) in Hq. injection Hq as <-. ring.
Qed.

Notation ttf := (time_to_freq tone cmul cdot).

Lemma stretch_lin a b u v w k L wu wv ww : lincomb a b u v w -> stretch u k L wu -> stretch v k L wv -> stretch w k L ww -> lincomb a b wu wv ww.
Proof.
  intros (_ & _ & H) (Hu & Eu & Su) (Hv & Ev & Sv) (Hw & Ew & Sw). split; [congruence|]. split; [congruence|].
  intros n x y Hx Hy. assert (Hn : n < L) by (rewrite <- Eu; apply nth_error_Some; congruence).
  rewrite Su in Hx by exact Hn. rewrite Sv in Hy by exact Hn. rewrite Sw by exact Hn. apply H; assumption.
Qed.

Lemma coeffs_lin a b x L shift u v w lu lv lw : 0 < shift -> length x = L -> lincomb a b u v w ->
  coeffs_of cdot x L shift u lu -> coeffs_of cdot x L shift v lv -> coeffs_of cdot x L shift w lw -> lincomb a b lu lv lw.
Proof.
  intros Hs Ex Hlin Hu Hv Hw. pose proof Hlin as (Eu & Ev & _).
  pose proof (coeffs_count _ _ _ _ _ _ Hs Hu) as Cu. pose proof (coeffs_count _ _ _ _ _ _ Hs Hv) as Cv. pose proof (coeffs_count _ _ _ _ _ _ Hs Hw) as Cw.
  assert (E1 : length lu = length lw) by (apply (count_unique _ _ L shift (length w) Hs); [intros k; rewrite Cu, Eu; reflexivity|exact Cw]).
  assert (E2 : length lv = length lw) by (apply (count_unique _ _ L shift (length w) Hs); [intros k; rewrite Cv, Ev; reflexivity|exact Cw]).
  split; [exact E1|]. split; [exact E2|]. intros k y z Hy Hz.
  assert (Hk : k < length lw) by (rewrite <- E1; apply nth_error_Some; congruence).
  apply Hu in Hy as (wu & Su & ->). apply Hv in Hz as (wv & Sv & ->). apply Hw.
  assert (Hfit : k * shift + L <= length w) by (apply Cw, Hk).
  exists (firstn L (skipn (k * shift) w)). pose proof (stretch_at w _ _ Hfit) as Sw. split; [exact Sw|].
  symmetry. apply cdot_lin; [destruct Sw as (_ & -> & _); exact Ex|]. eapply stretch_lin; eassumption.
Qed.

Lemma lincombs_lengths a b us vs ws size : lincombs a b us vs ws -> (forall y, In y us -> length y = size) ->
  (forall y, In y vs -> length y = size) /\ (forall y, In y ws -> length y = size).
Proof.
  intros (E1 & E2 & H) Hu. assert (Hall : forall c v w, nth_error vs c = Some v -> nth_error ws c = Some w -> length v = size /\ length w = size).
  { intros c v w Hv Hw. assert (Hc : c < length us) by (rewrite E1; apply nth_error_Some; congruence).
    destruct (nth_error us c) as [u|] eqn:Eu; [|apply nth_error_None in Eu; lia].
    destruct (H c u v Eu Hv) as (w' & Hw' & (L1 & L2 & _)). rewrite Hw in Hw'. injection Hw' as <-.
    pose proof (Hu u (nth_error_In _ _ Eu)). split; congruence. }
  split; intros y Hy; destruct (In_nth_error _ _ Hy) as (c & Hc).
  - assert (c < length ws) by (rewrite <- E2; apply nth_error_Some; congruence).
    destruct (nth_error ws c) as [w|] eqn:Ew; [|apply nth_error_None in Ew; lia]. apply (Hall c y w Hc Ew).
  - assert (c < length vs) by (rewrite E2; apply nth_error_Some; congruence).
    destruct (nth_error vs c) as [v|] eqn:Ev; [|apply nth_error_None in Ev; lia]. apply (Hall c v y Ev Hc).
Qed.

Lemma ttf_linear a b us vs ws fs f Nper ov w ru Nw L sh : lincombs a b us vs ws ->
  ttf us fs f Nper ov w = Ok (ru, (Nw, L, sh)) ->
  exists rv rw, ttf vs fs f Nper ov w = Ok (rv, (Nw, L, sh)) /\ ttf ws fs f Nper ov w = Ok (rw, (Nw, L, sh)) /\ lincombs a b ru rv rw.
Proof.
  intros Hlin Hu. apply time_to_freq_spec in Hu. pose proof (spectrum_count _ _ _ _ _ _ _ _ _ _ _ _ _ Hu) as (Hsh & _).
  destruct Hu as (size & nw & Hne & Hl & Hfs & Hdw & HN & o & x & Ho & Hx & Hall).
  pose proof (lincombs_lengths _ _ _ _ _ _ Hlin Hl) as (Hlv & Hlw). pose proof Hlin as (E1 & E2 & Hc).
  destruct (discrete_window_pos _ _ _ _ _ _ _ Hdw) as (Hsh0 & Hnw & Hge).
  destruct (window_fits (Z.of_nat size) (Z.of_nat L) (Z.of_nat sh) nw) as (Hfit & _); [lia|lia|exact Hnw|exact Hge|].
  assert (Hex : forall data, (forall y, In y data -> length y = size) -> exists r, Forall2 (coeffs_of cdot x L sh) data r).
  { intros data. induction data as [|y data IH]; intros Hd; [exists []; constructor|].
    destruct IH as (r & Hr); [intros z Hz; apply Hd; right; exact Hz|].
    destruct (channel_coeffs_ok cdot x (Z.of_nat L) (Z.of_nat sh) y) as (l & _ & Hcl); [rewrite (Hd y (or_introl eq_refl)); lia|lia|].
    rewrite !Nat2Z.id in Hcl. exists (l :: r). constructor; assumption. }
  destruct (Hex vs Hlv) as (rv & Hrv). destruct (Hex ws Hlw) as (rw & Hrw). exists rv, rw.
  assert (Hv : vs <> []) by (intros ->; destruct us; [congruence|simpl in *; lia]).
  assert (Hw : ws <> []) by (intros ->; destruct us; [congruence|simpl in *; lia]).
  split; [apply time_to_freq_spec; exists size, nw; repeat (split; [assumption|]); eauto 6|].
  split; [apply time_to_freq_spec; exists size, nw; repeat (split; [assumption|]); eauto 6|].
  pose proof (Forall2_len _ _ _ Hall) as L1. pose proof (Forall2_len _ _ _ Hrv) as L2. pose proof (Forall2_len _ _ _ Hrw) as L3.
  split; [lia|]. split; [lia|]. intros c lu lv Hlu Hlvc.
  destruct (Forall2_nth_error_r _ _ _ _ _ Hall Hlu) as (u & Eu & Cu). destruct (Forall2_nth_error_r _ _ _ _ _ Hrv Hlvc) as (v & Ev & Cv).
  destruct (Hc c u v Eu Ev) as (ww & Ew & Hlw'). destruct (Forall2_nth_error _ _ _ _ _ Hrw Ew) as (lw & Elw & Cw).
  exists lw. split; [exact Elw|]. destruct Hx as (Ex & _). eapply coeffs_lin; eassumption.
Qed.

(** ** A pure tone *)
(** [y] samples [amp * cos(2 pi nf n + phi)] *)
Definition samples_tone (amp phi : R) (nf : Qc) (y : list C) : Prop :=
  forall n v, nth_error y n = Some v -> v = RtoC (amp * cos (2 * PI * Qc2R nf * INR n + phi)).

Lemma Qc2R_lt a b : (a < b)%Qc -> (Qc2R a < Qc2R b)%R.
Proof. intros H. apply Qlt_Rlt. exact H. Qed.
Lemma Qc2R_Z z : Qc2R (ZtoQc z) = IZR z.
Proof. unfold Qc2R. rewrite (Qeq_eqR _ _ (this_Z z)). unfold Q2R, inject_Z. simpl. field. Qed.
Lemma Qc2R_mul a b : Qc2R (a * b)%Qc = (Qc2R a * Qc2R b)%R.
Proof. unfold Qc2R. rewrite (Qeq_eqR _ _ (this_mul a b)). apply Q2R_mult. Qed.

Lemma tone_coeff amp phi nf L (m : Z) a (x w y : list C) : L <> 0 ->
  (Q2Qc 0 < nf /\ nf < Q2Qc (1 # 2))%Qc -> (ZtoQc (Z.of_nat L) * nf)%Qc = ZtoQc m ->
  samples_tone amp phi nf y -> taper tone cmul nf L None x -> stretch y a L w ->
  cdot x w = (RtoC amp * cis (2 * PI * Qc2R nf * INR a + phi))%C.
Proof.
  intros HL (Hf0 & Hf1) Hm Hy (Ex & Hx) (Hfit & Ew & Hw).
  set (om := (2 * PI * Qc2R nf)%R). set (th := (om * INR a + phi)%R).
  assert (HLR : (INR L <> 0)%R) by (apply not_0_INR, HL).
  set (c1 := (RtoC (amp / INR L) * cis th)%C). set (c2 := (RtoC (amp / INR L) * cis (- th))%C).
  rewrite (cdot_sum x w (fun n => c1 * RtoC 1 + c2 * cis (- (2 * om) * INR n))%C).
  - rewrite csum_lin, Ew.
    assert (Hg : csum (fun n => cis (- (2 * om) * INR n)) L = RtoC 0).
    { apply (C_integral _ (cis (- (2 * om)) - RtoC 1)%C).
      - rewrite geometric. replace (- (2 * om) * INR L)%R with (2 * PI * IZR (- (2 * m)))%R.
        + rewrite cis_period. ring.
        + assert (HmR : (IZR m = INR L * Qc2R nf)%R) by (rewrite INR_IZR_INZ, <- (Qc2R_Z m), <- Hm, Qc2R_mul, Qc2R_Z; reflexivity).
          unfold om. rewrite opp_IZR, mult_IZR, HmR. ring.
      - assert (Ht : (0 < 2 * om < 2 * PI)%R).
        { apply Qc2R_lt in Hf0, Hf1. assert (E0 : Qc2R (Q2Qc 0) = 0%R) by (unfold Qc2R, Q2R; simpl; field).
          assert (E1 : Qc2R (Q2Qc (1 # 2)) = (1 / 2)%R) by (unfold Qc2R, Q2R; simpl; field). rewrite E0 in Hf0. rewrite E1 in Hf1.
          pose proof PI_RGT_0. unfold om. split; nra. }
        intros E. apply (cis_neq_1 _ Ht). replace (cis (- (2 * om))) with ((cis (- (2 * om)) - RtoC 1) + RtoC 1)%C by ring. rewrite E. ring. }
    rewrite Hg. assert (H1 : csum (fun _ => RtoC 1) L = RtoC (INR L)).
    { clear. induction L as [|L IH]; [reflexivity|]. simpl csum. rewrite IH, S_INR, RtoC_plus. reflexivity. }
    rewrite H1. unfold c1. rewrite Cmult_0_r, Cplus_0_r.
    replace (RtoC amp) with (RtoC (amp / INR L) * RtoC (INR L))%C by (rewrite <- RtoC_mult; f_equal; field; exact HLR).
    ring.
  - congruence.
  - intros n u v Hu Hv. assert (Hn : n < L) by (rewrite <- Ew; apply nth_error_Some; congruence).
    rewrite (Hx n Hn) in Hu. injection Hu as <-. rewrite (Hw n Hn) in Hv. apply Hy in Hv. subst v.
    unfold tone, cmul. rewrite plus_INR, RtoC_mult, cos_cis.
    replace (2 * PI * Qc2R nf * (INR a + INR n) + phi)%R with (th + om * INR n)%R by (unfold th, om; ring).
    fold om. unfold c1, c2.
    transitivity (RtoC (amp / INR L) * ((cis (- (om * INR n)) * cis (th + om * INR n)) + (cis (- (om * INR n)) * cis (- (th + om * INR n)))))%C.
    + rewrite !cis_add. replace (- (om * INR n) + (th + om * INR n))%R with th by ring.
      replace (- (om * INR n) + - (th + om * INR n))%R with (- th + - (2 * om) * INR n)%R by ring. rewrite <- cis_add. ring.
    + unfold Rdiv. rewrite !RtoC_mult, RtoC_inv by exact HLR. field. split; intros E; apply (f_equal fst) in E; simpl in E; [lra|exact (HLR E)].
Qed.

Lemma ttf_tone amp phi fs f Nper ov data r Nw L sh c y l (m : Z) :
  ttf data fs f Nper ov WNone = Ok (r, (Nw, L, sh)) -> (f / fs < Q2Qc (1 # 2))%Qc -> (ZtoQc (Z.of_nat L) * (f / fs))%Qc = ZtoQc m ->
  nth_error data c = Some y -> samples_tone amp phi (f / fs)%Qc y -> nth_error r c = Some l ->
  length l = Nw /\ forall k z, nth_error l k = Some z -> z = (RtoC amp * cis (phi + 2 * PI * Qc2R (f / fs)%Qc * INR (k * sh)))%C.
Proof.
  intros Ht Hf Hm Hc Hy Hl. apply time_to_freq_spec in Ht. pose proof (spectrum_count _ _ _ _ _ _ _ _ _ _ _ _ _ Ht) as (_ & size & _ & HN & _).
  split; [apply HN, (nth_error_In _ _ Hl)|]. destruct Ht as (size' & nw & Hne & Hlen & Hfs & Hdw & HNw & o & x & Ho & Hx & Hall).
  simpl in Ho. subst o. apply discrete_window_spec in Hdw. pose proof (params_length_pos _ _ _ _ _ _ _ Hdw) as (HL & _). pose proof (wp_freq _ _ _ _ _ _ _ Hdw) as (Hf0 & _).
  destruct (Forall2_nth_error _ _ _ _ _ Hall Hc) as (l' & Hl' & Hco). rewrite Hl in Hl'. injection Hl' as <-.
  intros k z Hz. apply Hco in Hz as (w & Hw & ->). 
  rewrite (tone_coeff amp phi (f / fs)%Qc L m (k * sh) x w y); [f_equal; f_equal; ring|lia|split; [exact Hf0|exact Hf]|exact Hm|exact Hy|exact Hx|exact Hw].
Qed.
