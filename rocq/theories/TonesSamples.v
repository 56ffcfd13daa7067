(** Example recordings of one frequency: an electric channel, a magnetic one whose
    instrument multiplies by [2j], and a channel of no interest. *)
From Coq Require Import Reals Lra Lia.
From Coquelicot Require Import Complex.
From Verif Require Import Base BaseLemmas Arith TagsModel SyncModel SetModel SpecSet FourierModel MestModel WeightModel RobustModel BiModel FullModel UtilsModel SpecUtils WholeModel SpecWhole SpecRemote
  SpecReport WholeSamples SpecTones.
Local Open Scope R_scope.

Definition turning_cal : calibration := fun _ => Ok (Some (0, 2)).
Definition tone_E : list R := [3; -4; -3; 4; 3; -4; -3; 4].
Definition tone_B : list R := [0; -2; 0; 2; 0; -2; 0; 2].
Definition tone_set : recordings := set_of [tone_E; tone_B; tone_E] [unit_cal; turning_cal; unit_cal].
Definition tone_field (r c : nat) : C := if (c =? 1)%nat then RtoC 1 else (3, 4).

Lemma tone_reach : reach unit_cal tone_set.
Proof.
  eapply (r_new unit_cal (TDict [("E", RInt 0); ("B", RInt 1); ("R", RInt 2)]%string) [ASync (run_of [tone_E; tone_B; tone_E] [unit_cal; turning_cal; unit_cal])]).
  - constructor.
  - intros a [<-|[]]. constructor. apply (rs_new unit_cal [tone_E; tone_B; tone_E] (4 : num RA) (0 : num RA) (Some [unit_cal; turning_cal; unit_cal])). reflexivity.
  - assert (I : exists i, s_interval (run_of [tone_E; tone_B; tone_E] [unit_cal; turning_cal; unit_cal]) = Ok i).
    { unfold s_interval, s_stop, index_to_time. cbn [run_of s_rate s_size s_start]. change (neqb RA 4 (nzero RA)) with (Reqb 4 0). unfold Reqb.
      destruct (Req_EM_T 4 0) as [H|_]; [lra|]. eexists. reflexivity. }
    destruct I as ([i1 i2] & I). unfold set_new. cbn [mapM bind]. unfold set_of_syncs. cbn [concat app mapM]. rewrite I. reflexivity.
Qed.
Lemma tone_coeffs : exists coeffs, coefficients one_period tone_set 1 = Ok (coeffs, ([2%nat], [4%nat], [4%nat])).
Proof.
  eexists. unfold coefficients, set_fourier, tone_set, set_of. cbn [ss_signals mapM].
  unfold sync_fourier, run_of. cbn [s_cal s_data s_rate mapM unit_cal turning_cal bind of_option].
  unfold time_to_freq, tone_E, tone_B. cbn [List.map List.length dedup filter Nat.eqb negb bind].
  change (neqb RA 4 (nzero RA)) with (Reqb 4 0). unfold Reqb. destruct (Req_EM_T 4 0) as [H|_]; [lra|]. cbn [negb check bind].
  cbn [fo_nper fo_overlap fo_window one_period].
  change (ndiv RA 1 4) with (1 / 4).
  replace (discrete_window (A := RA) 8 (1 / 4) 1 0) with (Ok (1%Z, 4%Z, 4%Z)) by (symmetry; exact window_8).
  cbn [bind eval_window check]. unfold kernel. change (Z.to_nat 4) with 4%nat. rewrite tones.
  cbn [mapM]. rewrite !channel_8, !dot_4. cbn [bind]. cbn [List.map List.length]. cbn [dedup filter Nat.eqb negb bind fst snd combine List.map].
  reflexivity.
Qed.
(** the powers of the imaginary unit *)
Lemma turns n : turn (2 * PI * (1 / 4) * INR (n + 4)) = turn (2 * PI * (1 / 4) * INR n).
Proof.
  unfold turn. replace (2 * PI * (1 / 4) * INR (n + 4)) with (2 * PI * (1 / 4) * INR n + 2 * PI) by (rewrite plus_INR; cbn [INR]; lra).
  rewrite cos_plus, sin_plus, cos_2PI, sin_2PI. f_equal; lra.
Qed.
Lemma turns_4 : turn (2 * PI * (1 / 4) * INR 0) = (1, 0) /\ turn (2 * PI * (1 / 4) * INR 1) = (0, 1) /\
  turn (2 * PI * (1 / 4) * INR 2) = (-1, 0) /\ turn (2 * PI * (1 / 4) * INR 3) = (0, -1).
Proof.
  unfold turn. split; [|split; [|split]].
  - replace (2 * PI * (1 / 4) * INR 0) with 0 by (cbn [INR]; lra). rewrite cos_0, sin_0. reflexivity.
  - replace (2 * PI * (1 / 4) * INR 1) with (PI / 2) by (cbn [INR]; lra). rewrite cos_PI2, sin_PI2. reflexivity.
  - replace (2 * PI * (1 / 4) * INR 2) with PI by (cbn [INR]; lra). rewrite cos_PI, sin_PI. reflexivity.
  - replace (2 * PI * (1 / 4) * INR 3) with (3 * (PI / 2)) by (cbn [INR]; lra). rewrite cos_3PI2, sin_3PI2. reflexivity.
Qed.
Lemma oscillates_8 u v : oscillates (u, v) (1 / 4) [u; - v; - u; v; u; - v; - u; v].
Proof.
  destruct turns_4 as (T0 & T1 & T2 & T3).
  assert (T : forall n, (n < 4)%nat -> turn (2 * PI * (1 / 4) * INR (n + 4)) = turn (2 * PI * (1 / 4) * INR n)) by (intros; apply turns).
  pose proof (turns 0) as T4. pose proof (turns 1) as T5. pose proof (turns 2) as T6. pose proof (turns 3) as T7.
  cbn [Nat.add] in T4, T5, T6, T7. rewrite T0 in T4. rewrite T1 in T5. rewrite T2 in T6. rewrite T3 in T7.
  intros [|[|[|[|[|[|[|[|n]]]]]]]] x E; cbn [nth_error] in E; try (destruct n; discriminate); injection E as <-;
    rewrite ?T0, ?T1, ?T2, ?T3, ?T4, ?T5, ?T6, ?T7; unfold Cmult; cbn [fst snd]; lra.
Qed.
Lemma tone_sinusoidal : sinusoidal 1 tone_field tone_set [0%nat; 1%nat].
Proof.
  intros [|r] s c Hs Hc; [|destruct r; discriminate]. injection Hs as <-.
  assert (E1 : (1 / 4)%R = (1 / s_rate (run_of [tone_E; tone_B; tone_E] [unit_cal; turning_cal; unit_cal]))%R) by reflexivity.
  destruct Hc as [<-|[<-|[]]].
  - exists tone_E, unit_cal, (RtoC 1). do 3 (split; [reflexivity|]). split; [intros H; injection H; lra|]. rewrite <- E1.
    replace (Cmult (RtoC 1) (tone_field 0 0)) with (3, 4) by (unfold tone_field, Cmult, RtoC; cbn [Nat.eqb fst snd]; f_equal; lra).
    exact (oscillates_8 3 4).
  - exists tone_B, turning_cal, (0, 2). do 3 (split; [reflexivity|]). split; [intros H; injection H; lra|]. rewrite <- E1.
    replace (Cmult (0, 2) (tone_field 0 1)) with (0, 2) by (unfold tone_field, Cmult, RtoC; cbn [Nat.eqb fst snd]; f_equal; lra).
    pose proof (oscillates_8 0 2) as O. replace (- 0) with 0 in O by lra. exact O.
Qed.
Lemma tone_periods : whole_periods 1 tone_set [4%nat].
Proof.
  intros [|r] s L Hs HL; [|destruct r; discriminate]. injection Hs as <-. injection HL as <-. cbn [s_rate run_of].
  split; [change (1 / 4 < 1 / 2); lra|]. exists 1%Z. change (INR 4 * (1 / 4) = 1). cbn [INR]. lra.
Qed.
Lemma tone_transferred : transferred tone_field tone_set [0%nat] [1%nat] [[(3, 4)]].
Proof.
  split; [split; [reflexivity|repeat constructor]|]. intros r [|i] _ Hi; [|cbn in Hi; lia].
  unfold csum, tone_field. cbn [List.length List.seq List.map fold_right nth Nat.eqb]. unfold Cplus, Cmult, RtoC. cbn [fst snd]. f_equal; lra.
Qed.
Lemma tone_polarised : polarised tone_field tone_set [1%nat].
Proof.
  intros v H [|j] Hj; [|cbn in Hj; lia]. specialize (H 0%nat ltac:(cbn; lia)). revert H.
  unfold csum, tone_field. cbn [List.length List.seq List.map fold_right nth Nat.eqb]. destruct (v 0%nat) as [x y]. unfold Cplus, Cmult, RtoC. cbn [fst snd].
  intros H; injection H as H1 H2. f_equal; lra.
Qed.

(** the third channel as remote reference *)
Lemma tone_sinusoidal_remote : sinusoidal 1 tone_field tone_set [0%nat; 1%nat; 2%nat].
Proof.
  intros r s c Hs Hc. destruct Hc as [<-|[<-|[<-|[]]]];
    [apply (tone_sinusoidal r s _ Hs); left; reflexivity|apply (tone_sinusoidal r s _ Hs); right; left; reflexivity|].
  destruct (tone_sinusoidal r s 0%nat Hs (or_introl eq_refl)) as (y & k & v & H). exists y, k, v.
  destruct r as [|r]; [|destruct r; discriminate]. injection Hs as <-. exact H.
Qed.
Lemma tone_transferred_remote : transferred tone_field tone_set [1%nat] [2%nat] [[(3 / 25, -4 / 25)]].
Proof.
  split; [split; [reflexivity|repeat constructor]|]. intros r [|i] _ Hi; [|cbn in Hi; lia].
  unfold csum, tone_field. cbn [List.length List.seq List.map fold_right nth Nat.eqb]. unfold Cplus, Cmult, RtoC. cbn [fst snd]. f_equal; lra.
Qed.
Lemma tone_polarised_remote : polarised tone_field tone_set [2%nat].
Proof.
  intros v H [|j] Hj; [|cbn in Hj; lia]. specialize (H 0%nat ltac:(cbn; lia)). revert H.
  unfold csum, tone_field. cbn [List.length List.seq List.map fold_right nth Nat.eqb]. destruct (v 0%nat) as [x y]. unfold Cplus, Cmult, RtoC. cbn [fst snd].
  intros H; injection H as H1 H2. f_equal; lra.
Qed.

(** a window of another shape: one period of the Hann window *)
Definition hann_4 : list C := [RtoC 0; RtoC (1 / 2); RtoC 1; RtoC (1 / 2)].
Definition hann_period : fopts := mkFopts 1 0 (WArray hann_4).
Lemma tone_coeffs_hann : exists coeffs, coefficients hann_period tone_set 1 = Ok (coeffs, ([2%nat], [4%nat], [4%nat])).
Proof.
  eexists. unfold coefficients, set_fourier, tone_set, set_of. cbn [ss_signals mapM].
  unfold sync_fourier, run_of. cbn [s_cal s_data s_rate mapM unit_cal turning_cal bind of_option].
  unfold time_to_freq, tone_E, tone_B. cbn [List.map List.length dedup filter Nat.eqb negb bind].
  change (neqb RA 4 (nzero RA)) with (Reqb 4 0). unfold Reqb. destruct (Req_EM_T 4 0) as [H|_]; [lra|]. cbn [negb check bind].
  cbn [fo_nper fo_overlap fo_window hann_period].
  change (ndiv RA 1 4) with (1 / 4).
  replace (discrete_window (A := RA) 8 (1 / 4) 1 0) with (Ok (1%Z, 4%Z, 4%Z)) by (symmetry; exact window_8).
  cbn [bind eval_window]. change (Z.to_nat 4) with 4%nat. change (List.length hann_4) with 4%nat. cbn [Nat.eqb check bind].
  unfold hann_4, kernel. rewrite tones. cbn [mapM]. rewrite !channel_8. cbn [bind]. cbn [List.map List.length]. cbn [dedup filter Nat.eqb negb bind fst snd combine List.map].
  reflexivity.
Qed.
Lemma hann_no_leak : no_leak 1 tone_set (fo_window hann_period) [4%nat].
Proof.
  intros [|r] s L Hs HL; [|destruct r; discriminate]. injection Hs as <-. injection HL as <-. exists hann_4. split; [reflexivity|].
  destruct turns_4 as (T0 & _ & T2 & _). pose proof (turns 0) as T4. pose proof (turns 2) as T6. cbn [Nat.add] in T4, T6. rewrite T0 in T4. rewrite T2 in T6.
  assert (F : forall n, turn (- (2 * (2 * PI * (1 / 4)) * INR n)) = Cconj (turn (2 * PI * (1 / 4) * INR (2 * n)))).
  { intros n. unfold turn, Cconj. rewrite cos_neg, sin_neg. cbn [fst snd]. rewrite mult_INR. replace (INR 2) with 2 by (cbn [INR]; lra).
    replace (2 * (2 * PI * (1 / 4)) * INR n) with (2 * PI * (1 / 4) * (2 * INR n)) by lra. reflexivity. }
  cbn [s_rate run_of]. split.
  - unfold csum. cbn [List.seq List.map fold_right]. change (1 / 4) with (1 / 4) in *. rewrite !F. cbn [Nat.mul Nat.add]. rewrite T0, T2, T4, T6.
    unfold hann_4. cbn [nth]. unfold Cplus, Cmult, Cconj, RtoC. cbn [fst snd]. f_equal; lra.
  - unfold csum, hann_4. cbn [List.seq List.map fold_right nth]. unfold Cplus, RtoC. cbn [fst snd]. intros H; injection H; lra.
Qed.
