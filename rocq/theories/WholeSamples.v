(** Example recordings for complete estimates: one run of 8 samples and three channels,
    an electric one, a noisy magnetic one and a remote one. *)
From Coq Require Import Reals Lra Lia.
From Coquelicot Require Import Complex.
From Verif Require Import Base BaseLemmas Arith TagsModel SyncModel SetModel FourierModel MestModel WeightModel RobustModel BiModel FullModel UtilsModel SpecUtils WholeModel SpecWhole SpecRemote.
Local Open Scope R_scope.

Definition unit_cal : calibration := fun _ => Ok (Some (RtoC 1)).
Definition run_of (ys : list (list R)) (ks : list calibration) : sync RA R calibration := mkSync ys ks (4 : num RA) (0 : num RA) 8%nat.
Definition set_of (ys : list (list R)) (ks : list calibration) : recordings :=
  mkSet [run_of ys ks] (mkTags 3 [("E", [0%nat]); ("B", [1%nat]); ("R", [2%nat])]%string).
Definition yE : list R := [1; 0; -1; 0; 1; 0; -1; 0].
Definition yB : list R := [2; 0; -2; 0; 0; 0; 0; 0].
Definition plain_set : recordings := set_of [yE; yB; yE] [unit_cal; unit_cal; unit_cal].
Definition one_period : fopts := mkFopts 1 0 (WNone (C := C)).
Definition plain_args (remote : option string) : arguments :=
  mkIargs (k := listK) (St := heap listW) [None] None remote None None "E" "B" (mkOpts listK (1 / 1000 : R) 100%Z (1 / 1000 : R)) false true true.

Lemma Int_part_IZR (n : Z) : Int_part (IZR n) = n.
Proof. unfold Int_part. rewrite <- (tech_up (IZR n) (n + 1)); [lia | rewrite plus_IZR; lra | rewrite plus_IZR; lra]. Qed.
Lemma window_8 : @discrete_window RA 8 (1 / 4) 1 0 = Ok (1%Z, 4%Z, 4%Z).
Proof.
  unfold discrete_window, ntrunc, nhalf; cbn [nleb nltb nceil nfloor ndiv nmul nsub nofZ n1 nzero RA].
  unfold Rleb, Rltb.
  destruct (Rle_dec 0 0) as [_|H]; [|lra]. destruct (Rle_dec 0 1) as [_|H]; [|lra].
  destruct (Rlt_dec 0 (1 / 4)) as [_|H]; [|lra]. destruct (Rle_dec (1 / 4) (1 / 2)) as [_|H]; [|lra].
  cbn [andb check bind].
  replace (- (1 / (1 / 4))) with (IZR (-4)) by lra. rewrite Int_part_IZR. cbn [Z.opp].
  destruct (Rlt_dec (4 * (1 - 0)) 0) as [H|_]; [lra|].
  replace (4 * (1 - 0)) with (IZR 4) by lra. rewrite Int_part_IZR. reflexivity.
Qed.
Lemma tones : List.map (r_tone (1 / 4) 4) (List.seq 0 4) = [(1 / 2, 0); (0, - (1 / 2)); (- (1 / 2), 0); (0, 1 / 2)].
Proof.
  assert (T : forall n c s, cos (- (2 * PI * (1 / 4) * INR n)) = c -> sin (- (2 * PI * (1 / 4) * INR n)) = s ->
    r_tone (1 / 4) 4 n = (c / 2, s / 2)).
  { intros n c s Hc Hs. unfold r_tone. rewrite Hc, Hs. unfold Cmult, RtoC. cbn [fst snd].
    f_equal; cbn [INR]; lra. }
  cbn [List.seq List.map].
  rewrite (T 0%nat 1 0), (T 1%nat 0 (-1)), (T 2%nat (-1) 0), (T 3%nat 0 1).
  - repeat f_equal; lra.
  - replace (- (2 * PI * (1 / 4) * INR 3)) with (- (3 * (PI / 2))) by (cbn [INR]; lra). rewrite cos_neg. apply cos_3PI2.
  - replace (- (2 * PI * (1 / 4) * INR 3)) with (- (3 * (PI / 2))) by (cbn [INR]; lra). rewrite sin_neg, sin_3PI2. lra.
  - replace (- (2 * PI * (1 / 4) * INR 2)) with (- PI) by (cbn [INR]; lra). rewrite cos_neg. apply cos_PI.
  - replace (- (2 * PI * (1 / 4) * INR 2)) with (- PI) by (cbn [INR]; lra). rewrite sin_neg, sin_PI. lra.
  - replace (- (2 * PI * (1 / 4) * INR 1)) with (- (PI / 2)) by (cbn [INR]; lra). rewrite cos_neg. apply cos_PI2.
  - replace (- (2 * PI * (1 / 4) * INR 1)) with (- (PI / 2)) by (cbn [INR]; lra). rewrite sin_neg, sin_PI2. lra.
  - replace (- (2 * PI * (1 / 4) * INR 0)) with 0 by (cbn [INR]; lra). apply cos_0.
  - replace (- (2 * PI * (1 / 4) * INR 0)) with 0 by (cbn [INR]; lra). apply sin_0.
Qed.
Lemma channel_8 K a b c d e f g h : channel_coeffs r_dot K 4 4 [a; b; c; d; e; f; g; h] = Ok [r_dot K [a; b; c; d]; r_dot K [e; f; g; h]].
Proof. reflexivity. Qed.
Lemma dot_4 a b c d : r_dot [(1 / 2, 0); (0, - (1 / 2)); (- (1 / 2), 0); (0, 1 / 2)] [a; b; c; d] = ((a - c) / 2, (d - b) / 2).
Proof. unfold r_dot, Cmult, Cplus, RtoC. cbn [combine fold_right fst snd]. f_equal; lra. Qed.
Lemma div_1 x : Cdiv x (RtoC 1) = x.
Proof. unfold Cdiv. assert (E : Cinv (RtoC 1) = RtoC 1) by (unfold Cinv, RtoC; cbn [fst snd]; f_equal; field). rewrite E. apply Cmult_1_r. Qed.
Lemma three_coeffs a b c d e f g h a' b' c' d' e' f' g' h' a2 b2 c2 d2 e2 f2 g2 h2 :
  coefficients one_period (set_of [[a; b; c; d; e; f; g; h]; [a'; b'; c'; d'; e'; f'; g'; h']; [a2; b2; c2; d2; e2; f2; g2; h2]] [unit_cal; unit_cal; unit_cal]) 1 =
  Ok ([[((a - c) / 2, (d - b) / 2); ((e - g) / 2, (h - f) / 2)]; [((a' - c') / 2, (d' - b') / 2); ((e' - g') / 2, (h' - f') / 2)];
       [((a2 - c2) / 2, (d2 - b2) / 2); ((e2 - g2) / 2, (h2 - f2) / 2)]], ([2%nat], [4%nat], [4%nat])).
Proof.
  unfold coefficients, set_fourier, set_of. cbn [ss_signals mapM].
  unfold sync_fourier, run_of. cbn [s_cal s_data s_rate mapM unit_cal bind of_option].
  unfold time_to_freq. cbn [List.map List.length dedup filter Nat.eqb negb bind].
  change (neqb RA 4 (nzero RA)) with (Reqb 4 0). unfold Reqb. destruct (Req_EM_T 4 0) as [H|_]; [lra|]. cbn [negb check bind].
  cbn [fo_nper fo_overlap fo_window one_period].
  change (ndiv RA 1 4) with (1 / 4).
  replace (discrete_window (A := RA) 8 (1 / 4) 1 0) with (Ok (1%Z, 4%Z, 4%Z)) by (symmetry; exact window_8).
  cbn [bind eval_window check]. unfold kernel. change (Z.to_nat 4) with 4%nat. rewrite tones.
  cbn [mapM]. rewrite !channel_8, !dot_4. cbn [bind]. cbn [List.map List.length]. cbn [dedup filter Nat.eqb negb bind fst snd combine List.map].
  rewrite !div_1. reflexivity.
Qed.
Lemma plain_coeffs : coefficients one_period plain_set 1 =
  Ok ([[RtoC 1; RtoC 1]; [RtoC 2; RtoC 0]; [RtoC 1; RtoC 1]], ([2%nat], [4%nat], [4%nat])).
Proof.
  unfold plain_set, yE, yB. rewrite three_coeffs. unfold RtoC. repeat (f_equal; try lra).
Qed.

(** ** The example with and without remote reference *)
Definition three : list (list C) := [[RtoC 1; RtoC 1]; [RtoC 2; RtoC 0]; [RtoC 1; RtoC 1]].
Ltac sums := cbv [correlation combination noise csum channel at_window three List.length List.map List.seq fold_right nth];
  unfold Cminus, Cplus, Copp, Cmult, Cconj, RtoC; cbn [fst snd].
Lemma three_recorded l : (forall c, In c l -> (c < 3)%nat) -> recorded three 2 l.
Proof.
  intros H c Hc. specialize (H c Hc). destruct c as [|[|[|c]]]; [| | |lia]; eexists; split; reflexivity.
Qed.
Lemma three_separate1 : separate three 2 [1%nat].
Proof.
  intros v H [|j] Hj; [|cbn in Hj; lia]. specialize (H 0%nat ltac:(lia)). revert H. sums. destruct (v 0%nat) as [x y]. cbn [fst snd].
  intros H; injection H as H1 H2. f_equal; lra.
Qed.
Lemma three_separate2 : separate three 2 [2%nat].
Proof.
  intros v H [|j] Hj; [|cbn in Hj; lia]. specialize (H 0%nat ltac:(lia)). revert H. sums. destruct (v 0%nat) as [x y]. cbn [fst snd].
  intros H; injection H as H1 H2. f_equal; lra.
Qed.
Lemma three_sees : sees three 2 [2%nat] [1%nat].
Proof.
  intros v H [|j] Hj; [|cbn in Hj; lia]. specialize (H 0%nat ltac:(cbn; lia)). revert H. sums. destruct (v 0%nat) as [x y]. cbn [fst snd].
  intros H; injection H as H1 H2. f_equal; lra.
Qed.
Lemma three_remote : related three 2 [0%nat] [1%nat] [2%nat] [[RtoC 1]].
Proof.
  split; [split; [reflexivity|repeat constructor]|]. intros [|i] Hi; [|cbn in Hi; lia]. intros [|k] Hk; [|cbn in Hk; lia].
  sums. f_equal; lra.
Qed.
Lemma three_local : related three 2 [0%nat] [1%nat] [1%nat] [[RtoC (1 / 2)]].
Proof.
  split; [split; [reflexivity|repeat constructor]|]. intros [|i] Hi; [|cbn in Hi; lia]. intros [|k] Hk; [|cbn in Hk; lia].
  sums. f_equal; lra.
Qed.

(** ** Other units: the magnetic channel in other units and with another calibration *)
Definition double_cal : calibration := fun _ => Ok (Some (RtoC 2)).
Definition other_set : recordings := set_of [yE; List.map (Rmult 6) yB; yE] [unit_cal; double_cal; unit_cal].
Definition factor (f : R) (c : nat) : C := if (c =? 1)%nat then RtoC 3 else RtoC 1.
Lemma factor_nz f c : factor f c <> RtoC 0.
Proof. unfold factor. destruct (c =? 1)%nat; intros H; injection H; lra. Qed.
Lemma other_changed f : recordings_changed f (factor f) plain_set other_set.
Proof.
  split; [reflexivity|]. constructor; [|constructor].
  split; [reflexivity|]. split; [reflexivity|]. split; [reflexivity|]. split; [reflexivity|]. split; [reflexivity|].
  assert (N1 : RtoC 1 <> RtoC 0) by (intros H; injection H; lra).
  assert (N2 : RtoC 2 <> RtoC 0) by (intros H; injection H; lra).
  assert (I : forall l : list R, l = List.map (Rmult 1) l).
  { induction l as [|x l IH]; [reflexivity|]. cbn [List.map]. rewrite <- IH. f_equal. lra. }
  intros [|[|[|c]]] y y' k k'; cbn [nth_error run_of s_data s_cal plain_set other_set set_of]; intros E1 E2 E3 E4; try (destruct c; discriminate);
    injection E1 as <-; injection E2 as <-; injection E3 as <-; injection E4 as <-.
  - exists 1, (RtoC 1), (RtoC 1). do 4 (split; [first [reflexivity|assumption]|]). split; [apply I|reflexivity].
  - exists 6, (RtoC 1), (RtoC 2). do 4 (split; [first [reflexivity|assumption]|]). split; [reflexivity|].
    unfold factor; cbn [Nat.eqb]. unfold Cdiv, Cinv, Cmult, RtoC. cbn [fst snd]. f_equal; field.
  - exists 1, (RtoC 1), (RtoC 1). do 4 (split; [first [reflexivity|assumption]|]). split; [apply I|reflexivity].
Qed.
