(** select_channels and select_runs. *)
From Verif Require Import Base BaseLemmas SliceLemmas Arith TagsModel SpecTags TagsProofs
  SyncModel SetModel SpecSet SetProofs SpecSelect TrackProofs.

Section Select.
Context {A : Arith} {V K : Type} (kone : K).
Notation sync := (sync A V K).
Notation sigset := (@sigset A V K).

Lemma no_overlap_wf (X : sigset) : wf_set X ->
  no_overlap (map (fun s => (s_start s, last_time s)) (ss_signals X)) = true.
Proof.
  intros HX. apply no_overlap_nth. intros i x y Hx Hy.
  apply nth_error_map_some in Hx as (s & Hs & ->), Hy as (s' & Hs' & ->). simpl.
  exact (ws_apart X HX i s s' Hs Hs').
Qed.

Lemma select_known (X : sigset) c Y : wf_set X -> plain (ss_tags X) ->
  select_channels kone X c = Ok Y -> sel_known X c.
Proof.
  intros HX Hp H. pose proof (ws_tags X HX) as Hv. unfold select_channels in H.
  apply bind_ok in H as (ids & Hids & H). apply bind_ok in H as (ll & Hll & _).
  assert (Hc : forall x, In x ids -> ~ unknown X x).
  { intros x Hx Hu. destruct (resolve_chan_spec X x Hv Hp) as [He _].
    destruct (mapM_In _ _ _ _ Hll Hx) as (y & _ & Hy). rewrite (He Hu) in Hy. discriminate. }
  destruct c as [[k|z]|l|sl]; simpl.
  - destruct (dget k (t_dict (ss_tags X))) as [l|] eqn:E; [|discriminate].
    intros Hu. apply (Hu l). apply dget_In, E.
  - injection Hids as <-. apply (Hc (CInt z)). left; reflexivity.
  - injection Hids as <-. exact Hc.
  - intros E. unfold slice_range, slice_indices in Hids. rewrite E in Hids. discriminate.
Qed.

Lemma select_unknown_error (X : sigset) l c : wf_set X -> plain (ss_tags X) ->
  In c l -> unknown X c -> select_channels kone X (SelSeq l) = Err ValueError.
Proof.
  intros HX Hp Hc Hu. pose proof (ws_tags X HX) as Hv. unfold select_channels. simpl.
  assert (E : mapM (resolve_chan (ss_tags X)) l = Err ValueError).
  { induction l as [|x l IH]; [destruct Hc|]. simpl.
    destruct (resolve_chan (ss_tags X) x) as [lx|e] eqn:Ex; simpl.
    - destruct Hc as [->|Hc].
      + destruct (resolve_chan_spec X c Hv Hp) as [He _]. rewrite (He Hu) in Ex. discriminate.
      + rewrite (IH Hc). reflexivity.
    - f_equal. destruct x as [k|z]; simpl in Ex.
      + destruct (dget k (t_dict (ss_tags X))); simpl in Ex; congruence.
      + destruct (idx_mem z (t_indices (ss_tags X))); congruence. }
  rewrite E. reflexivity.
Qed.

Lemma select_unknown_one_error (X : sigset) c : wf_set X -> plain (ss_tags X) ->
  unknown X c -> select_channels kone X (SelOne c) = Err ValueError.
Proof.
  intros HX Hp Hu. pose proof (ws_tags X HX) as Hv. unfold select_channels. destruct c as [k|z].
  - simpl in Hu. destruct (dget k (t_dict (ss_tags X))) as [l|] eqn:E; [|reflexivity].
    exfalso. apply (Hu l), dget_In, E.
  - destruct (resolve_chan_spec X (CInt z) Hv Hp) as [He _]. simpl bind. simpl mapM. simpl in He.
    rewrite (He Hu). reflexivity.
Qed.

Lemma s_select_run (s : sync) sel s' : sync_ok s -> s_select kone s sel = Ok s' -> run_selected sel s s'.
Proof.
  intros Hok H. apply s_select_inv in H as (Hok' & Hr & Hs & Hd & Hc).
  apply mapM_Forall2 in Hd, Hc.
  assert (Hd' : Forall2 (fun i d => nth_error (s_data s) i = Some d) sel (s_data s')).
  { eapply Forall2_impl; [|exact Hd]. intros i d. apply nth_res_ok. }
  split; [exact Hr|]. split; [exact Hs|]. split; [|split; [exact Hd'|]].
  - destruct (s_data s') as [|d l] eqn:E; [destruct (so_chan _ Hok' E)|].
    inversion Hd' as [|i ? ? ? Hi]; subst.
    rewrite <- (so_size _ Hok' d), <- (so_size _ Hok d); [reflexivity| |rewrite E; left; reflexivity].
    eapply nth_error_In; eauto.
  - eapply Forall2_impl; [|exact Hc]. intros i d. apply nth_res_ok.
Qed.

Lemma subsetb_incl' l1 l2 : subsetb Nat.eqb l1 l2 = true <-> incl l1 l2.
Proof. apply subsetb_incl, nat_eqb_iff. Qed.

Lemma select_tracks (X Y : sigset) sel :
  Forall2 (fun s s' => s_select kone s sel = Ok s') (ss_signals X) (ss_signals Y) ->
  t_dict (ss_tags Y) =
    map (fun kv => (fst kv, map (fun i => index_of i sel) (snd kv)))
        (filter (fun kv => subsetb Nat.eqb (snd kv) sel) (t_dict (ss_tags X))) ->
  tags_valid (ss_tags X) ->
  (forall k l', reads (ss_tags Y) k l' <->
     exists l, reads (ss_tags X) k l /\ incl l sel /\ l' = map (fun i => index_of i sel) l) /\
  (forall k l' p gs, reads (ss_tags Y) k l' -> (tracks Y k p gs <-> tracks X k p gs)).
Proof.
  intros HF Hd Hv.
  assert (Hreads : forall k l', reads (ss_tags Y) k l' <->
     exists l, reads (ss_tags X) k l /\ incl l sel /\ l' = map (fun i => index_of i sel) l).
  { intros k l'. unfold reads. rewrite Hd, in_map_iff. split.
    - intros ([k0 l0] & E & Hin). injection E as <- <-. apply filter_In in Hin as [Hin Hs].
      exists l0. split; [exact Hin|]. split; [apply subsetb_incl'; exact Hs|reflexivity].
    - intros (l & Hin & Hs & ->). exists (k, l). split; [reflexivity|]. apply filter_In. split; [exact Hin|].
      apply subsetb_incl'. exact Hs. }
  split; [exact Hreads|].
  intros k l' p gs Hk. apply Hreads in Hk as (l & Hl & Hincl & ->).
  assert (Hseg : forall c, In c sel ->
     (Forall2 (fun s g => is_seg s (index_of c sel) g) (ss_signals Y) gs <->
      Forall2 (fun s g => is_seg s c g) (ss_signals X) gs)).
  { intros c Hc. apply index_of_nth in Hc. revert gs.
    induction HF as [|s s' ls ls' Hs HF IH]; intros gs.
    - split; intros H; inversion H; constructor.
    - split; intros H; inversion H; subst; (constructor; [|apply IH; assumption]);
        eapply (select_seg kone s sel s'); eauto. }
  unfold tracks. split.
  - intros (l1 & c & Hl1 & Hc & Hgs). apply Hreads in Hl1 as (l2 & Hl2 & _ & ->).
    assert (l2 = l) by (apply (reads_dget _ _ _ Hv) in Hl, Hl2; congruence). subst l2.
    apply nth_error_map_some in Hc as (c0 & Hc0 & ->).
    exists l, c0. split; [exact Hl|]. split; [exact Hc0|]. apply Hseg; [|exact Hgs].
    apply Hincl. eapply nth_error_In; eauto.
  - intros (l1 & c & Hl1 & Hc & Hgs).
    assert (l1 = l) by (apply (reads_dget _ _ _ Hv) in Hl, Hl1; congruence). subst l1.
    exists (map (fun i => index_of i sel) l), (index_of c sel). split; [apply Hreads; eauto|].
    split; [apply nth_error_map_some; eauto|]. apply Hseg; [|exact Hgs].
    apply Hincl. eapply nth_error_In; eauto.
Qed.

Lemma map_fst_filter {B} (f : string * B -> bool) (d : dict B) : NoDup (map fst d) ->
  exists keep : string -> bool, map fst (filter f d) = filter keep (map fst d).
Proof.
  intros Hnd. exists (fun k => match dget k d with Some v => f (k, v) | None => false end).
  assert (G : forall d0, incl d0 d ->
     map fst (filter f d0) =
     filter (fun k => match dget k d with Some v => f (k, v) | None => false end) (map fst d0)).
  { induction d0 as [|[k v] d0 IH]; intros Hi; simpl; [reflexivity|].
    rewrite (In_dget k v d Hnd); [|apply Hi; left; reflexivity].
    destruct (f (k, v)); simpl; rewrite IH; try reflexivity; intros x Hx; apply Hi; right; exact Hx. }
  apply G. apply incl_refl.
Qed.

Theorem select_channels_spec (X : sigset) c Y : wf_set X -> plain (ss_tags X) ->
  select_channels kone X c = Ok Y ->
  exists sel, StronglySorted lt sel /\ (forall i, In i sel <-> chosen X c i) /\
    Forall2 (run_selected sel) (ss_signals X) (ss_signals Y) /\
    (exists keep, map fst (t_dict (ss_tags Y)) = filter keep (map fst (t_dict (ss_tags X)))) /\
    (forall k n, tag_size Y k n <->
       exists l, reads (ss_tags X) k l /\ length l = n /\ forall i, In i l -> chosen X c i) /\
    (forall k n p gs, tag_size Y k n -> (tracks Y k p gs <-> tracks X k p gs)).
Proof.
  intros HX Hp H. pose proof (select_known X c Y HX Hp H) as Hkn.
  destruct (select_channels_resolve kone X c HX Hp Hkn) as (idx & E & Hidx & Hr).
  rewrite E in H. apply select_indices_inv in H as [HF Hd]; [|exact HX].
  pose proof (ws_tags X HX) as Hv.
  destruct (select_tracks X Y (sel_of idx) HF Hd Hv) as [Hreads Htr].
  exists (sel_of idx). split; [apply sel_of_sorted|].
  assert (Hsel : forall i, In i (sel_of idx) <-> chosen X c i) by (intros i; rewrite sel_of_In; apply Hidx).
  split; [exact Hsel|]. split; [|split; [|split]].
  - assert (Hok : Forall (fun s => sync_ok s) (ss_signals X)) by (apply Forall_forall; apply (ws_sync X HX)).
    clear - HF Hok. induction HF as [|s s' l l' Hs HF IH]; [constructor|]. inversion Hok; subst.
    constructor; [apply s_select_run; assumption|auto].
  - rewrite Hd. rewrite map_map. simpl. apply map_fst_filter. apply Hv.
  - intros k n. unfold tag_size. split.
    + intros (l' & Hl' & <-). apply Hreads in Hl' as (l & Hl & Hi & ->). exists l.
      split; [exact Hl|]. split; [rewrite map_length; reflexivity|]. intros i Hii. apply Hsel, Hi, Hii.
    + intros (l & Hl & <- & Hi). exists (map (fun i => index_of i (sel_of idx)) l).
      split; [|apply map_length]. apply Hreads. exists l. split; [exact Hl|]. split; [|reflexivity].
      intros i Hii. apply Hsel, Hi, Hii.
  - intros k n p gs (l' & Hl' & _). exact (Htr k l' p gs Hl').
Qed.

(** success of a selection *)
Lemma index_of_lt i l : In i l -> index_of i l < length l.
Proof. intros H. apply index_of_nth in H. apply nth_error_Some. congruence. Qed.

Lemma select_indices_ok (X : sigset) idx : wf_set X -> plain (ss_tags X) ->
  (forall i, In i idx -> i < t_n (ss_tags X)) -> (ss_signals X = [] \/ idx <> []) ->
  exists Y, select_indices kone X idx = Ok Y /\
    (ss_signals X <> [] -> t_n (ss_tags Y) = length (sel_of idx)).
Proof.
  intros HX Hp Hr Hne. pose proof (ws_tags X HX) as Hv. unfold select_indices. fold (sel_of idx).
  set (sel := sel_of idx).
  rewrite (plain_method _ "items" Hp) by (simpl; auto 10). simpl bind.
  set (kept := filter (fun kv => subsetb Nat.eqb (snd kv) sel) (t_dict (ss_tags X))).
  set (newd := map (fun kv => (fst kv, RList (map (fun i => Z.of_nat (index_of i sel)) (snd kv)))) kept).
  assert (Hin : forall k v, In (k, v) newd -> exists l, reads (ss_tags X) k l /\ incl l sel /\
                 v = RList (map (fun i => Z.of_nat (index_of i sel)) l)).
  { intros k v Hkv. unfold newd in Hkv. apply in_map_iff in Hkv as ([k0 l0] & E & Hkv).
    injection E as <- <-. apply filter_In in Hkv as [Hkv Hs]. exists l0.
    split; [exact Hkv|]. split; [apply subsetb_incl'; exact Hs|reflexivity]. }
  assert (Hno : ~ In "indices"%string (map fst newd)).
  { intros Hi. apply in_map_iff in Hi as ([k v] & E & Hi). simpl in E. subst.
    apply Hin in Hi as (l & Hl & _). apply (Hp _ _ Hl). simpl; auto. }
  destruct (proj2 (tags_new_ok_iff (Some (Z.of_nat (length sel))) newd Hno)) as [t Ht].
  { intros k v Hkv. apply Hin in Hkv as (l & Hl & Hi & ->). split.
    - intros [E|E]; apply (Hp _ _ Hl); rewrite E; simpl; auto 10.
    - split; [exact (tv_names _ Hv _ _ Hl)|]. simpl. split.
      + pose proof (tv_nonempty _ Hv _ _ Hl). destruct l; [congruence|discriminate].
      + intros z Hz. apply in_map_iff in Hz as (i & <- & Hii). pose proof (index_of_lt i sel (Hi i Hii)). lia. }
  rewrite Ht. simpl bind.
  assert (Htv : tags_valid t) by (eapply tags_new_valid; eauto).
  assert (Htn : t_n t = length sel) by (apply tags_new_n in Ht; rewrite Ht; apply Nat2Z.id).
  assert (Htp : plain t).
  { intros k l Hl. assert (Hd : t_dict t = store newd).
    { eapply tags_new_dict; [|exact Ht]. unfold newd, dkeys. rewrite map_map. simpl.
      destruct (map_fst_filter (fun kv => subsetb Nat.eqb (snd kv) sel) (t_dict (ss_tags X)) (tv_unique _ Hv)) as [keep Ek].
      fold kept in Ek. change (NoDup (map fst kept)). rewrite Ek. apply NoDup_filter. apply Hv. }
    unfold reads in Hl. rewrite Hd in Hl. unfold store in Hl. apply in_map_iff in Hl as ([k0 v0] & E & Hl).
    injection E as <- _. apply Hin in Hl as (l0 & Hl0 & _). exact (Hp _ _ Hl0). }
  destruct (mapM_ok_exists (fun s => s_select kone s sel) (ss_signals X)) as [signals Hsig].
  { intros s Hs. pose proof (ws_sync X HX s Hs) as Hok. pose proof (ws_chan X HX s Hs) as Hch.
    assert (Hsel : forall i, In i sel -> i < length (s_data s)).
    { intros i Hi. unfold sel in Hi. rewrite sel_of_In in Hi. rewrite Hch. auto. }
    destruct (mapM_ok_exists (nth_res (s_data s)) sel) as [d Hd].
    { intros i Hi. specialize (Hsel i Hi). destruct (nth_error (s_data s) i) as [x|] eqn:E.
      - exists x. apply nth_res_ok, E.
      - apply nth_error_None in E. lia. }
    destruct (mapM_ok_exists (nth_res (s_cal s)) sel) as [k Hk].
    { intros i Hi. specialize (Hsel i Hi). rewrite <- (so_cal _ Hok) in Hsel.
      destruct (nth_error (s_cal s) i) as [x|] eqn:E.
      - exists x. apply nth_res_ok, E.
      - apply nth_error_None in E. lia. }
    unfold s_select. rewrite Hd, Hk. simpl. apply sync_new_exists.
    - destruct Hne as [Hne|Hne]; [rewrite Hne in Hs; destruct Hs|].
      assert (sel <> []).
      { intros E. destruct idx as [|i idx']; [congruence|]. assert (In i sel) by (apply sel_of_In; left; reflexivity).
        rewrite E in H. destruct H. }
      apply mapM_length in Hd. destruct sel; [congruence|]. destruct d; [discriminate|discriminate].
    - apply mapM_length in Hd, Hk. congruence.
    - intros a b Ha Hb. destruct (mapM_In_r _ _ _ _ Hd Ha) as (i & _ & Hi).
      destruct (mapM_In_r _ _ _ _ Hd Hb) as (j & _ & Hj). apply nth_res_ok in Hi, Hj.
      rewrite (so_size _ Hok a), (so_size _ Hok b); [reflexivity| |]; eapply nth_error_In; eauto. }
  rewrite Hsig. simpl bind.
  apply mapM_Forall2 in Hsig.
  assert (Hrun : Forall2 (run_selected sel) (ss_signals X) signals).
  { assert (Hok : Forall (fun s => sync_ok s) (ss_signals X)) by (apply Forall_forall; apply (ws_sync X HX)).
    clear - Hsig Hok. induction Hsig as [|s s' l l' Hs HF IH]; [constructor|]. inversion Hok; subst.
    constructor; [apply s_select_run; assumption|auto]. }
  assert (Hsorted : sort_signals signals = signals).
  { apply sort_signals_sorted_id. eapply StronglySorted_map_iff; [exact Hrun| |apply wf_sorted; exact HX].
    intros x y x' y' (_ & Ex & _) (_ & Ey & _). unfold sync_lt. rewrite Ex, Ey. auto. }
  assert (Hiv : map (fun s => (s_start s, last_time s)) signals =
                map (fun s => (s_start s, last_time s)) (ss_signals X)).
  { clear - Hrun. induction Hrun as [|s s' l l' (Er & Es & Ez & _) HF IH]; [reflexivity|]. simpl.
    unfold last_time, sample_time. rewrite Er, Es, Ez. f_equal. exact IH. }
  assert (Hlen : forall s, In s signals -> length (s_data s) = length sel).
  { intros s Hs. apply In_nth_error in Hs as [j Hj].
    destruct (Forall2_nth_error_r _ _ _ _ _ Hrun Hj) as (s0 & _ & (_ & _ & _ & Hd & _)).
    symmetry. eapply Forall2_len; eauto. }
  rewrite set_of_syncs_ok; rewrite ?Hsorted.
  - destruct (set_tags_obj_ok signals t Htv Htp) as (t' & Ht' & Hd' & Heq).
    + destruct signals as [|s l]; [left; reflexivity|]. right. exists s. split; [reflexivity|].
      rewrite Htn. rewrite Hlen by (left; reflexivity). split; [reflexivity|].
      assert (E : s_data s <> []).
      { inversion Hrun as [|s0 ? ? ? _ _ E0]; subst. inversion Hsig as [|? ? ? ? Hs0 _]; subst.
        apply s_select_inv in Hs0 as (Hok & _). apply Hok. }
      rewrite <- (Hlen s) by (left; reflexivity). destruct (s_data s); [congruence|simpl; lia].
    + rewrite Ht'. simpl. exists (mkSet signals t'). split; [reflexivity|].
      intros HXne. simpl. rewrite Heq; [exact Htn|].
      intros E. apply HXne. apply Forall2_len in Hrun. rewrite E in Hrun. destruct (ss_signals X); [reflexivity|discriminate].
  - intros s s' Hs Hs'. rewrite !Hlen by assumption. reflexivity.
  - intros s Hs. apply In_nth_error in Hs as [j Hj].
    destruct (Forall2_nth_error_r _ _ _ _ _ Hrun Hj) as (s0 & Hs0 & (Er & _)).
    rewrite Er. apply (ws_rate X HX). eapply nth_error_In; eauto.
  - rewrite Hiv. apply no_overlap_wf, HX.
Qed.

Theorem select_channels_ok (X : sigset) c : wf_set X -> plain (ss_tags X) -> sel_known X c ->
  (ss_signals X = [] \/ exists i, chosen X c i) ->
  exists Y, select_channels kone X c = Ok Y.
Proof.
  intros HX Hp Hk Hne. destruct (select_channels_resolve kone X c HX Hp Hk) as (idx & E & Hidx & Hr).
  rewrite E. destruct (select_indices_ok X idx HX Hp Hr) as (Y & HY & _).
  - destruct Hne as [Hne|[i Hi]]; [left; exact Hne|right]. apply Hidx in Hi. intros E0; rewrite E0 in Hi; destruct Hi.
  - eauto.
Qed.

(** selecting everything changes nothing *)
Lemma seq_sorted n : forall a, StronglySorted lt (seq a n).
Proof.
  induction n as [|n IH]; intros a; simpl; constructor; [apply IH|].
  apply Forall_forall. intros x Hx. apply in_seq in Hx. lia.
Qed.

Lemma index_of_seq n : forall a i, a <= i < a + n -> index_of i (seq a n) = i - a.
Proof.
  induction n as [|n IH]; intros a i Hi; simpl; [lia|].
  destruct (Nat.eqb_spec i a); [lia|]. rewrite IH by lia. lia.
Qed.

Lemma mapM_nth_seq {B} (l : list B) : mapM (nth_res l) (seq 0 (length l)) = Ok l.
Proof.
  assert (G : forall l1 l2 : list B, mapM (nth_res (l1 ++ l2)) (seq (length l1) (length l2)) = Ok l2).
  { intros l1 l2. revert l1. induction l2 as [|x l2 IH]; intros l1; simpl; [reflexivity|].
    unfold nth_res at 1. rewrite nth_error_app2, Nat.sub_diag by lia. simpl.
    specialize (IH (l1 ++ [x])). rewrite <- app_assoc in IH. simpl in IH.
    rewrite app_length in IH. simpl in IH. rewrite Nat.add_1_r in IH. rewrite IH. reflexivity. }
  exact (G [] l).
Qed.

Theorem select_all_id (X : sigset) : wf_set X -> plain (ss_tags X) -> ss_signals X <> [] ->
  select_channels kone X (SelSlice full_slice) = Ok X.
Proof.
  intros HX Hp Hne. pose proof (ws_tags X HX) as Hv.
  assert (Hn : nb_channels X = t_n (ss_tags X)) by (apply nb_channels_wf; [exact HX|apply plain_no; simpl; auto 10]).
  assert (Hpos : 0 < t_n (ss_tags X)).
  { destruct (ss_signals X) as [|s l] eqn:E; [congruence|].
    assert (Hs : In s (ss_signals X)) by (rewrite E; left; reflexivity).
    rewrite <- (ws_chan X HX s Hs). pose proof (so_chan _ (ws_sync X HX s Hs)).
    destruct (s_data s); [congruence|simpl; lia]. }
  destruct (select_channels_resolve kone X (SelSlice full_slice) HX Hp) as (idx & E & Hidx & Hr); [simpl; discriminate|].
  assert (Hsel : sel_of idx = seq 0 (t_n (ss_tags X))).
  { apply (sorted_perm_unique Nat.ltb).
    - apply NoDup_Permutation; [apply sel_of_NoDup|apply seq_NoDup|].
      intros i. rewrite sel_of_In, Hidx. simpl. rewrite slice_range_full. split.
      + intros (l & El & Hi). injection El as <-. apply in_map_iff in Hi as (j & Ej & Hj).
        apply Nat2Z.inj in Ej. subst; exact Hj.
      + intros Hi. eexists. split; [reflexivity|]. apply in_map, Hi.
    - pose proof (sel_of_sorted idx) as Hs. induction Hs as [|x l Hs IH HF]; constructor; [exact IH|].
      eapply Forall_impl; [|exact HF]. intros y Hy. apply Nat.ltb_ge. simpl in Hy. lia.
    - pose proof (seq_sorted (t_n (ss_tags X)) 0) as Hs. induction Hs as [|x l Hs IH HF]; constructor; [exact IH|].
      eapply Forall_impl; [|exact HF]. intros y Hy. apply Nat.ltb_ge. simpl in Hy. lia.
    - intros x y _ _ H1 H2. apply Nat.ltb_ge in H1, H2. lia. }
  destruct (select_indices_ok X idx HX Hp Hr) as (Y & HY & HYn).
  { right. intros E0. rewrite E0 in Hsel. destruct (t_n (ss_tags X)); [lia|discriminate]. }
  rewrite E, HY. f_equal.
  apply select_indices_inv in HY as [HF Hd]; [|exact HX]. rewrite Hsel in HF, Hd.
  specialize (HYn Hne). rewrite Hsel, seq_length in HYn.
  destruct X as [xs [xn xd]], Y as [ys [yn yd]]; simpl in *. f_equal; [|f_equal].
  - clear - HF HX. pose proof (ws_sync _ HX) as Hok. pose proof (ws_chan _ HX) as Hch. simpl in Hok, Hch.
    clear HX. induction HF as [|s s' l l' Hs HF IH]; [reflexivity|].
    f_equal; [|apply IH; intros; [apply Hok|apply Hch]; right; assumption].
    specialize (Hok s (or_introl eq_refl)). specialize (Hch s (or_introl eq_refl)).
    unfold s_select in Hs. rewrite <- Hch in Hs. rewrite mapM_nth_seq in Hs. rewrite <- (so_cal _ Hok) in Hs.
    rewrite mapM_nth_seq in Hs. simpl in Hs. rewrite sync_new_self in Hs by exact Hok. congruence.
  - exact HYn.
  - rewrite Hd. clear - Hv.
    assert (Hr : forall k l c, In (k, l) xd -> In c l -> c < xn) by (intros k l c; apply (tv_range _ Hv)).
    clear Hv. induction xd as [|[k l] d IH]; [reflexivity|]. simpl.
    assert (El : subsetb Nat.eqb l (seq 0 xn) = true).
    { apply subsetb_incl'. intros c Hc. apply in_seq. split; [lia|]. apply (Hr k l); [left; reflexivity|exact Hc]. }
    rewrite El. simpl. f_equal.
    + f_equal. rewrite <- (map_id l) at 2. apply map_ext_in. intros c Hc.
      rewrite index_of_seq; [lia|]. split; [lia|]. apply (Hr k l); [left; reflexivity|exact Hc].
    + apply IH. intros k' l' c Hin. apply (Hr k'). right; exact Hin.
Qed.

(** ** select_runs *)
Lemma set_new_syncs tg (l : list sync) : set_new kone tg (map ASync l) = set_of_syncs tg l.
Proof.
  unfold set_new. rewrite mapM_map.
  rewrite (mapM_ok_all _ (fun s => [s])) by reflexivity. simpl. f_equal.
  induction l as [|s l IH]; [reflexivity|]. simpl. f_equal. exact IH.
Qed.

Lemma mask_indices_spec m : forall a i, In i (mask_indices m a) <-> a <= i /\ nth_error m (i - a) = Some true.
Proof.
  induction m as [|b m IH]; intros a i; simpl.
  - split; [tauto|]. intros [_ H]. destruct (i - a); discriminate.
  - assert (Hs : (S a <= i /\ nth_error m (i - S a) = Some true) <-> (a < i /\ nth_error (b :: m) (i - a) = Some true)).
    { split; intros [H1 H2]; (split; [lia|]).
      - replace (i - a) with (S (i - S a)) by lia. exact H2.
      - replace (i - a) with (S (i - S a)) in H2 by lia. exact H2. }
    destruct b; simpl; rewrite IH, Hs; split.
    + intros [->|[H1 H2]]; [rewrite Nat.sub_diag; auto|split; [lia|exact H2]].
    + intros [H1 H2]. destruct (Nat.eq_dec a i); [left; assumption|right; split; [lia|exact H2]].
    + intros [H1 H2]; split; [lia|exact H2].
    + intros [H1 H2]. split; [|exact H2]. destruct (Nat.eq_dec a i); [|lia].
      subst. rewrite Nat.sub_diag in H2. discriminate.
Qed.

Lemma mask_indices_sorted m : forall a, StronglySorted lt (mask_indices m a).
Proof.
  induction m as [|b m IH]; intros a; simpl; [constructor|]. destruct b; [|apply IH].
  constructor; [apply IH|]. apply Forall_forall. intros i Hi. apply mask_indices_spec in Hi. lia.
Qed.

Lemma np_index_spec n z i : np_index n z = Ok i <-> wraps_to n z i.
Proof.
  unfold np_index, wraps_to.
  set (j := (if (z <? 0)%Z then (z + Z.of_nat n)%Z else z)).
  assert (Hj : (z < 0 /\ j = z + Z.of_nat n \/ 0 <= z /\ j = z)%Z)
    by (unfold j; destruct (Z.ltb_spec z 0); lia).
  destruct (Z.ltb_spec j 0); simpl; [|destruct (Z.leb_spec (Z.of_nat n) j)]; split.
  - discriminate.
  - lia.
  - discriminate.
  - lia.
  - intros E; injection E as <-. lia.
  - intros E. f_equal. lia.
Qed.

Lemma np_index_err n z : (exists i, np_index n z = Ok i) \/
  (np_index n z = Err IndexError /\ (z < - Z.of_nat n \/ Z.of_nat n <= z)%Z).
Proof.
  unfold np_index. set (j := (if (z <? 0)%Z then (z + Z.of_nat n)%Z else z)).
  assert (Hj : (z < 0 /\ j = z + Z.of_nat n \/ 0 <= z /\ j = z)%Z)
    by (unfold j; destruct (Z.ltb_spec z 0); lia).
  destruct (Z.ltb_spec j 0); simpl; [right; split; [reflexivity|lia]|].
  destruct (Z.leb_spec (Z.of_nat n) j); [right; split; [reflexivity|lia]|left; eauto].
Qed.

Lemma sorted_lt_ext l1 l2 : StronglySorted lt l1 -> StronglySorted lt l2 ->
  (forall i, In i l1 <-> In i l2) -> l1 = l2.
Proof.
  intros H1 H2 H. rewrite <- (sorted_lt_id l1 H1), <- (sorted_lt_id l2 H2). unfold sel_of, sort_nat.
  apply (sorted_perm_unique Nat.ltb).
  - rewrite <- !(sort_perm Nat.ltb). apply NoDup_Permutation; try apply (NoDup_dedup _ nat_eqb_iff).
    intros i. rewrite !(In_dedup _ nat_eqb_iff). apply H.
  - apply (sort_sorted Nat.ltb (fun _ => True)).
    + intros x y _ _ E. apply Nat.ltb_lt in E. apply Nat.ltb_ge. lia.
    + intros x y z _ _ _ E1 E2. apply Nat.ltb_ge in E1, E2. apply Nat.ltb_ge. lia.
    + apply Forall_forall; auto.
  - apply (sort_sorted Nat.ltb (fun _ => True)).
    + intros x y _ _ E. apply Nat.ltb_lt in E. apply Nat.ltb_ge. lia.
    + intros x y z _ _ _ E1 E2. apply Nat.ltb_ge in E1, E2. apply Nat.ltb_ge. lia.
    + apply Forall_forall; auto.
  - intros x y _ _ E1 E2. apply Nat.ltb_ge in E1, E2. lia.
Qed.

Lemma run_indices_spec n r idx : run_indices n r = Ok idx <-> picks n r idx.
Proof.
  destruct r as [z|sl|l|m]; simpl.
  - rewrite bind_ok. split.
    + intros (i & Hi & E). injection E as <-. exists i. split; [reflexivity|apply np_index_spec, Hi].
    + intros (i & -> & Hi). exists i. split; [apply np_index_spec, Hi|reflexivity].
  - rewrite bind_ok. split.
    + intros (l & Hl & E). injection E as <-. rewrite <- (slice_range_nat _ _ _ Hl). exact Hl.
    + intros H. eexists. split; [exact H|]. f_equal. rewrite map_map. rewrite <- (map_id idx) at 2.
      apply map_ext. intros; lia.
  - rewrite mapM_Forall2. split; intros H; (eapply Forall2_impl; [|exact H]); intros z i; apply np_index_spec.
  - destruct (Nat.eqb_spec (length m) n) as [E|E].
    + split.
      * intros H; injection H as <-. split; [exact E|]. split; [apply mask_indices_sorted|].
        intros i. rewrite mask_indices_spec, Nat.sub_0_r. split; [tauto|]. intros; split; [lia|assumption].
      * intros (_ & Hs & Hi). f_equal. apply sorted_lt_ext; [apply mask_indices_sorted|exact Hs|].
        intros i. rewrite mask_indices_spec, Nat.sub_0_r, Hi. split; [tauto|]. intros; split; [lia|assumption].
    + split; [discriminate|intros (H & _); contradiction].
Qed.

Theorem select_runs_spec (X : sigset) r Y : wf_set X -> select_runs kone X r = Ok Y ->
  exists idx runs, picks (nb_runs X) r idx /\
    Forall2 (fun i s => nth_error (ss_signals X) i = Some s) idx runs /\
    Permutation runs (ss_signals Y) /\
    (StronglySorted lt idx -> ss_signals Y = runs) /\
    t_dict (ss_tags Y) = t_dict (ss_tags X).
Proof.
  intros HX H. unfold select_runs in H.
  apply bind_ok in H as (idx & Hidx & H). apply bind_ok in H as (runs & Hruns & H).
  rewrite set_new_syncs in H. apply set_of_syncs_inv in H as (_ & _ & Hs & _ & Ht).
  exists idx, runs. apply run_indices_spec in Hidx. split; [exact Hidx|].
  apply mapM_Forall2 in Hruns.
  assert (Hr : Forall2 (fun i s => nth_error (ss_signals X) i = Some s) idx runs).
  { eapply Forall2_impl; [|exact Hruns]. intros i s. apply nth_res_ok. }
  split; [exact Hr|]. split; [|split].
  - rewrite Hs. apply sort_perm.
  - intros Hlt. rewrite Hs. apply sort_signals_sorted_id.
    eapply StronglySorted_map_iff; [exact Hr| |exact Hlt].
    intros i j s s' Hi Hj Hij. exact (ws_sorted X HX i j s s' Hij Hi Hj).
  - apply set_tags_obj in Ht; [exact Ht|]. apply (ws_tags X HX).
Qed.

Theorem select_runs_out_of_range (X : sigset) r : out_of_range (nb_runs X) r ->
  select_runs kone X r = Err IndexError.
Proof.
  intros H. unfold select_runs.
  assert (E : run_indices (nb_runs X) r = Err IndexError).
  { destruct r as [z|sl|l|m]; simpl in *.
    - destruct (np_index_err (nb_runs X) z) as [[i Hi]|[E _]]; [|rewrite E; reflexivity].
      apply np_index_spec in Hi as [Hi1 Hi2]. lia.
    - destruct H.
    - destruct H as (z & Hz & Hr). induction l as [|y l IH]; [destruct Hz|]. simpl.
      destruct (np_index_err (nb_runs X) y) as [[i Hi]|[E _]]; [|rewrite E; reflexivity].
      rewrite Hi. simpl. destruct Hz as [->|Hz]; [apply np_index_spec in Hi as [Hi1 Hi2]; lia|].
      rewrite (IH Hz). reflexivity.
    - destruct (Nat.eqb_spec (length m) (nb_runs X)); [contradiction|reflexivity]. }
  rewrite E. reflexivity.
Qed.

End Select.
