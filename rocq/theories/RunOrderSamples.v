(** Example for runs recorded at other times: two runs of 8 samples and three channels. *)
From Coq Require Import Reals Lra Lia Permutation.
From Coquelicot Require Import Complex.
From Verif Require Import Base BaseLemmas Arith TagsModel TagsProofs SyncModel SetModel SpecSet FourierModel MestModel WeightModel RobustModel BiModel FullModel SpecFull UtilsModel SpecUtils WholeModel SpecWhole SpecRemote
  WholeSamples SpecRunOrder.
Local Open Scope R_scope.

Definition run_at (start : R) (ys : list (list R)) : sync RA R calibration := mkSync ys [unit_cal; unit_cal; unit_cal] (4 : num RA) (start : num RA) 8%nat.
Definition first_run : list (list R) := [yE; yB; yE].
Definition second_run : list (list R) := [yB; yE; yE].
Definition two_tags : tags := mkTags 3 [("E", [0%nat]); ("B", [1%nat]); ("R", [2%nat])]%string.
(** the second run after the first, and before it *)
Definition two_runs : recordings := mkSet [run_at 0 first_run; run_at 10 second_run] two_tags.
Definition swapped_runs : recordings := mkSet [run_at (-5) second_run; run_at 3 first_run] two_tags.

Lemma swapped_moved : runs_moved two_runs swapped_runs.
Proof.
  split; [reflexivity|]. exists [run_at 10 second_run; run_at 0 first_run]. split; [apply perm_swap|].
  repeat constructor.
Qed.
Lemma two_runs_wf : wf_set two_runs.
Proof.
  assert (S : forall s, In s (ss_signals two_runs) -> s = run_at 0 first_run \/ s = run_at 10 second_run).
  { intros s [<-|[<-|[]]]; auto. }
  constructor.
  - intros s Hs. destruct (S s Hs) as [-> | ->]; (constructor; [discriminate|reflexivity|]); cbn; intros c [<-|[<-|[<-|[]]]]; reflexivity.
  - intros s Hs. destruct (S s Hs) as [-> | ->]; reflexivity.
  - intros s Hs. destruct (S s Hs) as [-> | ->]; cbn; unfold Reqb; destruct (Req_EM_T 4 0); first [lra|reflexivity].
  - intros [|[|i]] [|[|j]] s s' Hij E1 E2; try lia; cbn in E1, E2; try (destruct i; discriminate); try (destruct j; discriminate).
    injection E1 as <-. injection E2 as <-. cbn. unfold Rltb. destruct (Rlt_dec 10 0); [lra|reflexivity].
  - intros [|i] s s' E1 E2; cbn in E1, E2; [|destruct i; discriminate]. injection E1 as <-. injection E2 as <-.
    cbn. unfold Rleb. destruct (Rle_dec _ _) as [|H]; [reflexivity|]. exfalso. apply H. lra.
  - apply (tags_new_valid (Some 3%Z) [("E", RList [0%Z]); ("B", RList [1%Z]); ("R", RList [2%Z])]%string). reflexivity.
Qed.

Lemma run_8 start a b c d e f g h a' b' c' d' e' f' g' h' a2 b2 c2 d2 e2 f2 g2 h2 :
  sync_fourier (A := RA) r_tone Cmult r_dot (fun k : calibration => k) Cdiv
    (run_at start [[a; b; c; d; e; f; g; h]; [a'; b'; c'; d'; e'; f'; g'; h']; [a2; b2; c2; d2; e2; f2; g2; h2]]) 1 1 0 (WNone (C := C)) =
  Ok ([[((a - c) / 2, (d - b) / 2); ((e - g) / 2, (h - f) / 2)]; [((a' - c') / 2, (d' - b') / 2); ((e' - g') / 2, (h' - f') / 2)];
       [((a2 - c2) / 2, (d2 - b2) / 2); ((e2 - g2) / 2, (h2 - f2) / 2)]], (2%nat, 4%nat, 4%nat)).
Proof.
  unfold sync_fourier, run_at. cbn [s_cal s_data s_rate mapM unit_cal bind of_option].
  unfold time_to_freq. cbn [List.map List.length dedup filter Nat.eqb negb bind].
  change (neqb RA 4 (nzero RA)) with (Reqb 4 0). unfold Reqb. destruct (Req_EM_T 4 0) as [H|_]; [lra|]. cbn [negb check bind].
  change (ndiv RA 1 4) with (1 / 4).
  replace (discrete_window (A := RA) 8 (1 / 4) 1 0) with (Ok (1%Z, 4%Z, 4%Z)) by (symmetry; exact window_8).
  cbn [bind eval_window check]. unfold kernel. change (Z.to_nat 4) with 4%nat. rewrite tones.
  cbn [mapM]. rewrite !channel_8, !dot_4. cbn [bind]. cbn [List.map List.length]. cbn [dedup filter Nat.eqb negb bind fst snd combine List.map].
  rewrite !div_1. reflexivity.
Qed.
Definition six : list (list C) := [[RtoC 1; RtoC 1; RtoC 2; RtoC 0]; [RtoC 2; RtoC 0; RtoC 1; RtoC 1]; [RtoC 1; RtoC 1; RtoC 1; RtoC 1]].
Lemma two_coeffs : coefficients one_period two_runs 1 = Ok (six, ([2%nat; 2%nat], [4%nat; 4%nat], [4%nat; 4%nat])).
Proof.
  unfold coefficients, set_fourier, two_runs, first_run, second_run, yE, yB. cbn [ss_signals mapM fo_nper fo_overlap fo_window one_period].
  rewrite !run_8. cbn [bind]. cbn. unfold six, RtoC. repeat (f_equal; try lra).
Qed.
Ltac sums6 := cbv [correlation combination noise csum channel at_window six List.length List.map List.seq fold_right nth];
  unfold Cminus, Cplus, Copp, Cmult, Cconj, RtoC; cbn [fst snd].
Lemma six_separate : separate six 4 [1%nat].
Proof.
  intros v H [|j] Hj; [|cbn in Hj; lia]. specialize (H 0%nat ltac:(lia)). revert H. sums6. destruct (v 0%nat) as [x y]. cbn [fst snd].
  intros H; injection H as H1 H2. f_equal; lra.
Qed.
Lemma six_local : related six 4 [0%nat] [1%nat] [1%nat] [[RtoC (2 / 3)]].
Proof.
  split; [split; [reflexivity|repeat constructor]|]. intros [|i] Hi; [|cbn in Hi; lia]. intros [|k] Hk; [|cbn in Hk; lia].
  sums6. f_equal; lra.
Qed.
Lemma six_recorded l : (forall c, In c l -> (c < 3)%nat) -> recorded six 4 l.
Proof.
  intros H c Hc. specialize (H c Hc). destruct c as [|[|[|c]]]; [| | |lia]; eexists; split; reflexivity.
Qed.

(** least squares, and robust estimation with two weights of the library *)
Definition robust_args : arguments :=
  mkIargs (k := listK) (St := heap listW) (weightings listW [None; Some (Huber (k := listK) (3 / 2)); Some (BoundedInfluence (k := listK) 1%nat (Thomson (k := listK) 0%nat None) (1 / 10) (1 / 2))])
    None (Some "R"%string) None None "E" "B" (mkOpts listK (1 / 1000 : R) 100%Z (1 / 1000 : R)) false true true.
Lemma robust_library : library (ia_weights robust_args).
Proof. eexists. split; [reflexivity|]. repeat constructor. Qed.
Lemma plain_library r : library (ia_weights (plain_args r)).
Proof. exists [None]. split; [reflexivity|]. repeat constructor. Qed.
