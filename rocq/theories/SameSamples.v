(** Example recordings: those of WholeSamples.v with the channels in another order, and
    with a remote channel that has no calibration. *)
From Coq Require Import Reals Lra Lia.
From Coquelicot Require Import Complex.
From Verif Require Import Base BaseLemmas Arith OrdLaws TagsModel SyncModel SetModel SpecTags SpecSet SetProofs FourierModel MestModel WeightModel RobustModel BiModel FullModel UtilsModel SpecUtils WholeModel SpecWhole SpecRemote
  SpecReport WholeReport WholeSamples ReportSamples SpecSame SameProofs.
Local Open Scope R_scope.

Lemma agree_intro {A : Arith} {V K} (X Y : @sigset A V K) t l l' : wf_set X -> wf_set Y -> t_get (ss_tags X) t = Ok l -> t_get (ss_tags Y) t = Ok l' ->
  Forall2 (same_channel X Y) l l' -> agree X Y t.
Proof.
  intros WX WY GX GY F. apply (reads_get X t l WX) in GX. apply (reads_get Y t l' WY) in GY.
  assert (EL : length l = length l') by (clear -F; induction F; simpl; congruence).
  assert (U : forall (s : list (sync A V K)) c gs gs', Forall2 (fun s g => is_seg s c g) s gs -> Forall2 (fun s g => is_seg s c g) s gs' -> gs = gs').
  { intros s c gs gs' H. revert gs'. induction H as [|x [g1 g2 g3 g4] s gs (H1 & H2 & H3 & H4) H IH]; intros gs' H'; inversion H' as [|? [k1 k2 k3 k4] ? gs2 (K1 & K2 & K3 & K4) HK]; subst; [reflexivity|].
    f_equal; [simpl in *; congruence|apply IH, HK]. }
  split.
  - intros n. split; intros (m & R & E).
    + rewrite (reads_unique X t m l WX R GX) in E. exists l'. split; [exact GY|congruence].
    + rewrite (reads_unique Y t m l' WY R GY) in E. exists l. split; [exact GX|congruence].
  - intros p gs. split; intros (m & c & R & P & Q).
    + rewrite (reads_unique X t m l WX R GX) in P. destruct (Forall2_nth_error _ _ _ _ _ F P) as (c' & P' & gs2 & Q1 & Q2).
      rewrite (U _ _ _ _ Q Q1). exists l', c'. auto.
    + rewrite (reads_unique Y t m l' WY R GY) in P. destruct (Forall2_nth_error_r _ _ _ _ _ F P) as (c' & P' & gs2 & Q1 & Q2).
      rewrite (U _ _ _ _ Q Q2). exists l, c'. auto.
Qed.

(** one run of 8 samples at rate 4 *)
Lemma one_run_reach ys ks d t : @sync_new RA R calibration unit_cal ys (4 : num RA) (0 : num RA) (Some ks) = Ok (run_of ys ks) ->
  set_tags [run_of ys ks] None (TDict d) = Ok t -> reach unit_cal (mkSet [run_of ys ks] t).
Proof.
  intros Hs Ht. eapply (r_new unit_cal (TDict d) [ASync (run_of ys ks)]).
  - constructor.
  - intros a [<-|[]]. constructor. exact (rs_new unit_cal ys (4 : num RA) (0 : num RA) (Some ks) _ Hs).
  - assert (I : exists i, s_interval (run_of ys ks) = Ok i).
    { unfold s_interval, s_stop, index_to_time. cbn [run_of s_rate s_size s_start]. change (neqb RA 4 (nzero RA)) with (Reqb 4 0). unfold Reqb.
      destruct (Req_EM_T 4 0) as [H|_]; [lra|]. eexists. reflexivity. }
    destruct I as ([i1 i2] & I). unfold set_new. cbn [mapM bind concat app]. unfold set_of_syncs. cbn [map dedup filter length Nat.leb check bind mapM].
    rewrite I. cbn [bind]. change (no_overlap (sort_intervals [(i1, i2)])) with true. cbn [check bind].
    change (sort_signals [run_of ys ks]) with [run_of ys ks]. rewrite Ht. reflexivity.
Qed.

(** the channels of [plain_set] that are not remote, in the other order *)
Definition turned_set : recordings := mkSet [run_of [yB; yE] [unit_cal; unit_cal]] (mkTags 2 [("E", [1%nat]); ("B", [0%nat])]%string).
Lemma turned_reach : reach unit_cal turned_set.
Proof. apply (one_run_reach [yB; yE] [unit_cal; unit_cal] [("E", RInt 1); ("B", RInt 0)]%string); reflexivity. Qed.
(** the remote channel without calibration *)
Definition mute_cal : calibration := fun _ => Ok None.
Definition mute_set : recordings := set_of [yE; yB; yE] [unit_cal; unit_cal; mute_cal].
Lemma mute_reach : reach unit_cal mute_set.
Proof. apply (one_run_reach [yE; yB; yE] [unit_cal; unit_cal; mute_cal] [("E", RInt 0); ("B", RInt 1); ("R", RInt 2)]%string); reflexivity. Qed.

Lemma one_channel (s s' : sync RA R calibration) t t' c c' y : nth_error (s_data s) c = Some y -> nth_error (s_data s') c' = Some y ->
  nth_error (s_cal s) c = Some unit_cal -> nth_error (s_cal s') c' = Some unit_cal -> s_rate s' = s_rate s -> s_start s' = s_start s ->
  same_channel (mkSet [s] t) (mkSet [s'] t') c c'.
Proof.
  intros H1 H2 H3 H4 H5 H6. exists [mkSeg (s_rate s) (s_start s) y unit_cal]. split; (constructor; [|constructor]); repeat split; auto.
Qed.
Lemma turned_agree t : used (plain_args None) t -> agree plain_set turned_set t.
Proof.
  pose proof (reach_wf unit_cal RA_ord _ plain_reach) as W1. pose proof (reach_wf unit_cal RA_ord _ turned_reach) as W2.
  intros [->|[->|H]]; [| |discriminate].
  - apply (agree_intro _ _ _ [0%nat] [1%nat] W1 W2); [reflexivity|reflexivity|]. constructor; [|constructor]. eapply one_channel; reflexivity.
  - apply (agree_intro _ _ _ [1%nat] [0%nat] W1 W2); [reflexivity|reflexivity|]. constructor; [|constructor]. eapply one_channel; reflexivity.
Qed.
Lemma mute_agree t : used (plain_args None) t -> agree plain_set mute_set t.
Proof.
  pose proof (reach_wf unit_cal RA_ord _ plain_reach) as W1. pose proof (reach_wf unit_cal RA_ord _ mute_reach) as W2.
  intros [->|[->|H]]; [| |discriminate].
  - apply (agree_intro _ _ _ [0%nat] [0%nat] W1 W2); [reflexivity|reflexivity|]. constructor; [|constructor]. eapply one_channel; reflexivity.
  - apply (agree_intro _ _ _ [1%nat] [1%nat] W1 W2); [reflexivity|reflexivity|]. constructor; [|constructor]. eapply one_channel; reflexivity.
Qed.
Lemma plain_calibrated (f : R) : calibrated (A := RA) (V := R) (C := C) (fun k : calibration => k) plain_set f.
Proof. intros s c [<-|[]] [<-|[<-|[<-|[]]]]; eexists; reflexivity. Qed.
Lemma turned_calibrated (f : R) : calibrated (A := RA) (V := R) (C := C) (fun k : calibration => k) turned_set f.
Proof. intros s c [<-|[]] [<-|[<-|[]]]; eexists; reflexivity. Qed.
