(** Time windows of signal sets: proofs (exact arithmetic). *)
From Coq Require Import QArith Qcanon.
From Verif Require Import Base BaseLemmas SliceLemmas Arith OrdLaws QcLemmas TagsModel SpecTags TagsProofs
  SyncModel SetModel SpecSet SetProofs SpecSelect TrackProofs SelectProofs OrderProofs SpecTime ExtractProofs.
Open Scope nat_scope.

Section ExtractSet.
Context {V K : Type} (kone : K).
Notation sync := (sync QA V K).
Notation sigset := (@sigset QA V K).
Notation seg := (@seg QA V K).

(** runs left by a time selection *)
Inductive cuts (P : Qc -> bool) : list sync -> list sync -> Prop :=
| cuts_nil : cuts P [] []
| cuts_keep s l l' i n : iscut P s i n -> 2 <= n -> cuts P l l' -> cuts P (s :: l) (cut s i n :: l')
| cuts_drop s l l' i n : iscut P s i n -> n <= 1 -> cuts P l l' -> cuts P (s :: l) l'.

(** *** one run, any size *)
Lemma extract_run (s : sync) a b : sync_ok s -> pos (s_rate s) ->
  exists s' i n, sync_extract_t kone s a b false = Ok s' /\ iscut (within a b) s i n /\
    ((2 <= n /\ s' = cut s i n) \/ (n <= 1 /\ s_size s' <= 1)).
Proof.
  intros Hs Hr. destruct (Nat.eq_dec (s_size s) 0) as [E|E].
  - (* an empty run: one index window, empty result *)
    assert (Hlt : last_time s = (s_start s - Q2Qc 1 / s_rate s)%Qc).
    { unfold last_time, sample_time. rewrite E. simpl. change (ZtoQc (-1)) with (- Q2Qc 1)%Qc. field. apply pos_neq, Hr. }
    assert (Hlt2 : (last_time s < s_start s)%Qc).
    { rewrite <- (sample_0 s). apply time_mono_lt; [exact Hr|]. rewrite E. reflexivity. }
    assert (Ha : forall x, @pmin QA (last_time s) (@pmax QA (s_start s) x) = last_time s).
    { intros x. destruct (pmin_min (last_time s) (@pmax QA (s_start s) x)) as (_ & _ & [->| Heq]); [reflexivity|].
      destruct (pmax_max (s_start s) x) as (G & _). destruct (pmin_min (last_time s) (@pmax QA (s_start s) x)) as (G2 & _).
      rewrite Heq in G2. exfalso. apply (Qclt_not_le _ _ Hlt2). eapply Qcle_trans; eauto. }
    assert (Hi : ((last_time s - s_start s) * s_rate s)%Qc = ZtoQc (-1)).
    { rewrite Hlt. change (ZtoQc (-1)) with (- Q2Qc 1)%Qc. field. apply pos_neq, Hr. }
    unfold sync_extract_t. rewrite (s_stop_pos s Hr). cbn [bind]. rewrite !Ha. unfold time_to_index.
    cbn [bind nceil nfloor QA nmul nsub]. rewrite !Hi, Qcceil_Z, Qcfloor_Z. cbn [bind].
    unfold extract_i. cbn [negb orb check bind]. unfold index_to_time. rewrite E. simpl Z.ltb. cbv iota. simpl neqb. rewrite (pos_eqb _ Hr).
    cbn [bind]. simpl Z.add.
    set (d := map (fun e => py_slice1 e (-1) 0) (s_data s)).
    assert (Hd : forall c, In c d -> length c = 0).
    { intros c Hc. apply in_map_iff in Hc as (e & <- & He). pose proof (so_size _ Hs e He) as Hl. rewrite E in Hl.
      apply length_zero_iff_nil in Hl. rewrite Hl. reflexivity. }
    assert (Hnew : sync_ok (mkSync d (s_cal s) (s_rate s) (nadd QA (s_start s) (ndiv QA (nofZ QA (-1)) (s_rate s))) 0)).
    { split; simpl; [|unfold d; rewrite map_length; apply so_cal, Hs|exact Hd].
      intros G. apply map_eq_nil in G. apply (so_chan _ Hs G). }
    eexists. exists 0, 0. split; [|split].
    + apply (sync_new_self kone _ Hnew).
    + split; [lia|]. intros j Hj. rewrite E in Hj. lia.
    + right. simpl. lia.
  - assert (Hn : 0 < s_size s) by lia.
    destruct (Qclt_le_dec b (s_start s)) as [M|M].
    { destruct (extract_misses kone s a b Hs Hr Hn (or_introl M)) as (i & n & H & Hn1 & Hc). exists (cut s i n), 0, 0.
      split; [exact H|]. split; [exact Hc|]. right. simpl. lia. }
    destruct (Qclt_le_dec (last_time s) a) as [M2|M2].
    { destruct (extract_misses kone s a b Hs Hr Hn (or_intror M2)) as (i & n & H & Hn1 & Hc). exists (cut s i n), 0, 0.
      split; [exact H|]. split; [exact Hc|]. right. simpl. lia. }
    destruct (extract_meets kone s a b Hs Hr Hn M2 M) as (i & n & H & Hc). exists (cut s i n), i, n.
    split; [exact H|]. split; [exact Hc|]. destruct (Nat.le_gt_cases n 1); [right; simpl; lia|left; split; [lia|reflexivity]].
Qed.

(** *** lists of runs *)
Lemma extract_cuts (l : list sync) a b : (forall s, In s l -> sync_ok s) -> (forall s, In s l -> pos (s_rate s)) ->
  exists l1, mapM (fun s => sync_extract_t kone s a b false) l = Ok l1 /\
             cuts (within a b) l (filter (fun s => 1 <? s_size s) l1).
Proof.
  induction l as [|s l IH]; intros Hs Hr; [exists []; split; [reflexivity|constructor]|].
  destruct IH as (l1 & Hm & Hc); [intros; apply Hs; right; assumption|intros; apply Hr; right; assumption|].
  destruct (extract_run s a b) as (s' & i & n & He & Hi & Hor); [apply Hs; left; reflexivity|apply Hr; left; reflexivity|].
  exists (s' :: l1). simpl. rewrite He. simpl. rewrite Hm. split; [reflexivity|].
  destruct Hor as [[Hn ->]|[Hn Hsz]].
  - simpl s_size. destruct (Nat.ltb_spec 1 n); [|lia]. constructor; assumption.
  - destruct (Nat.ltb_spec 1 (s_size s')); [lia|]. econstructor; eauto.
Qed.

Lemma cuts_In P (l l' : list sync) s' : cuts P l l' -> In s' l' ->
  exists s i n, In s l /\ iscut P s i n /\ 2 <= n /\ s' = cut s i n.
Proof.
  induction 1 as [|s l l' i n Hi Hn Hc IH|s l l' i n Hi Hn Hc IH]; [intros []| |].
  - intros [<-|Hin]; [exists s, i, n; simpl; auto|].
    destruct (IH Hin) as (s0 & i0 & n0 & G1 & G2). exists s0, i0, n0. simpl. tauto.
  - intros Hin. destruct (IH Hin) as (s0 & i0 & n0 & G1 & G2). exists s0, i0, n0. simpl. tauto.
Qed.

Definition before (s s' : sync) : Prop := (last_time s <= s_start s')%Qc.
(** a run of [l'] is inside a run of [l] *)
Lemma cut_inside (s : sync) i n : pos (s_rate s) -> i + n <= s_size s -> 1 <= n ->
  (s_start s <= s_start (cut s i n))%Qc /\ (s_start (cut s i n) <= last_time (cut s i n))%Qc /\
  (last_time (cut s i n) <= last_time s)%Qc.
Proof.
  intros Hr Hin Hn. assert (E : last_time (cut s i n) = sample_time s (Z.of_nat (i + (n - 1)))).
  { unfold last_time. simpl s_size. replace (Z.of_nat n - 1)%Z with (Z.of_nat (n - 1)) by lia. apply cut_time, Hr. }
  rewrite E. simpl s_start. split; [|split].
  - rewrite <- (sample_0 s) at 1. apply sample_mono; [exact Hr|lia].
  - apply sample_mono; [exact Hr|lia].
  - apply sample_mono; [exact Hr|lia].
Qed.

Lemma cuts_before P (l l' : list sync) : (forall s, In s l -> pos (s_rate s)) ->
  cuts P l l' -> StronglySorted before l -> StronglySorted before l'.
Proof.
  intros Hr Hc. induction Hc as [|s l l' i n Hi Hn Hc IH|s l l' i n Hi Hn Hc IH]; intros Hs; [constructor| |].
  - apply StronglySorted_inv in Hs as [Hs1 Hs2]. constructor; [apply IH; [intros; apply Hr; right; assumption|exact Hs1]|].
    apply Forall_forall. intros s' Hs'. destruct (cuts_In _ _ _ _ Hc Hs') as (s0 & i0 & n0 & G1 & G2 & G3 & ->).
    rewrite Forall_forall in Hs2. specialize (Hs2 s0 G1). unfold before in *.
    destruct (cut_inside s i n) as (_ & _ & C1); [apply Hr; left; reflexivity|apply Hi|lia|].
    destruct (cut_inside s0 i0 n0) as (C2 & _ & _); [apply Hr; right; exact G1|apply G2|lia|].
    eapply Qcle_trans; [exact C1|]. eapply Qcle_trans; [exact Hs2|exact C2].
  - apply StronglySorted_inv in Hs as [Hs1 Hs2]. apply IH; [intros; apply Hr; right; assumption|exact Hs1].
Qed.

Lemma wf_before (X : sigset) : wf_set X -> StronglySorted before (ss_signals X).
Proof.
  intros HX. apply StronglySorted_of_nth. intros i j s s' Hij Hi Hj.
  destruct (nth_error (ss_signals X) (S i)) as [m|] eqn:Hm; [|apply nth_error_None in Hm; apply nth_error_Some_lt in Hj; lia].
  pose proof (ws_apart X HX i s m Hi Hm) as H1. apply Qcleb_le in H1. unfold before.
  destruct (Nat.eq_dec j (S i)) as [->|Hne]; [congruence|].
  pose proof (ws_sorted X HX (S i) j m s' ltac:(lia) Hm Hj) as H2. apply Qcltb_ge in H2. eapply Qcle_trans; eauto.
Qed.

(** *** building a set from a chain of runs *)
Lemma chain_set_ok (t : tags) (l : list sync) :
  (forall s, In s l -> length (s_data s) = t_n t) -> (forall s, In s l -> pos (s_rate s)) ->
  (forall s, In s l -> (s_start s <= last_time s)%Qc) -> StronglySorted before l ->
  set_of_syncs (TObj t) l = (t' <- set_tags l None (TObj t) ;; Ok (mkSet l t')).
Proof.
  intros Hd Hr Hf Hs.
  assert (Hsort : sort_signals l = l).
  { apply sort_signals_sorted_id. apply StronglySorted_of_nth. intros i j s s' Hij Hi Hj. apply Qcltb_ge.
    pose proof (StronglySorted_nth _ _ Hs i j s s' Hij Hi Hj) as H. unfold before in H.
    eapply Qcle_trans; [apply Hf; eapply nth_error_In; eauto|exact H]. }
  rewrite set_of_syncs_ok; rewrite ?Hsort; [reflexivity| | |].
  - intros s s' H1 H2. rewrite !Hd by assumption. reflexivity.
  - intros s H1. apply pos_eqb, Hr, H1.
  - apply no_overlap_nth. intros i x y Hx Hy.
    apply nth_error_map_some in Hx as (s & Hs1 & ->), Hy as (s' & Hs2 & ->). simpl.
    apply Qcleb_le. apply (StronglySorted_nth _ _ Hs i (S i)); auto.
Qed.

Lemma cuts_set (X : sigset) P l' : wf_set X -> positive_rates X -> cuts P (ss_signals X) l' ->
  set_of_syncs (TObj (ss_tags X)) l' = (t' <- set_tags l' None (TObj (ss_tags X)) ;; Ok (mkSet l' t')).
Proof.
  intros HX Hr Hc. apply chain_set_ok.
  - intros s Hs. destruct (cuts_In _ _ _ _ Hc Hs) as (s0 & i & n & G1 & G2 & G3 & ->). simpl. rewrite map_length.
    apply (ws_chan X HX s0 G1).
  - intros s Hs. destruct (cuts_In _ _ _ _ Hc Hs) as (s0 & i & n & G1 & G2 & G3 & ->). simpl. apply Hr, G1.
  - intros s Hs. destruct (cuts_In _ _ _ _ Hc Hs) as (s0 & i & n & G1 & G2 & G3 & ->).
    apply cut_inside; [apply Hr, G1|apply G2|lia].
  - eapply cuts_before; [exact Hr|exact Hc|apply wf_before, HX].
Qed.

(** result of an extraction *)
Lemma extract_in_eq (X : sigset) a b : wf_set X -> positive_rates X ->
  exists l', cuts (within a b) (ss_signals X) l' /\
    extract_in kone X a b = (t' <- set_tags l' None (TObj (ss_tags X)) ;; Ok (mkSet l' t')).
Proof.
  intros HX Hr. destruct (extract_cuts (ss_signals X) a b (ws_sync X HX) Hr) as (l1 & Hm & Hc).
  eexists. split; [exact Hc|]. unfold extract_in. rewrite Hm. cbn [bind]. rewrite set_new_syncs. eapply cuts_set; eauto.
Qed.

Lemma cuts_tags (X : sigset) P l' : wf_set X -> plain (ss_tags X) -> cuts P (ss_signals X) l' ->
  exists t', set_tags l' None (TObj (ss_tags X)) = Ok t' /\ t_dict t' = t_dict (ss_tags X) /\ (l' <> [] -> t' = ss_tags X).
Proof.
  intros HX Hp Hc. apply (set_tags_obj_ok l' (ss_tags X) (ws_tags X HX) Hp).
  destruct l' as [|s' l'0] eqn:E; [left; reflexivity|right]. exists s'. split; [reflexivity|].
  destruct (cuts_In _ _ _ s' Hc) as (s0 & i & n & G1 & G2 & G3 & ->); [left; reflexivity|]. simpl. rewrite map_length.
  rewrite (ws_chan X HX s0 G1). split; [reflexivity|]. rewrite <- (ws_chan X HX s0 G1).
  pose proof (so_chan _ (ws_sync X HX s0 G1)). destruct (s_data s0); [congruence|simpl; lia].
Qed.

Theorem extract_in_ok (X : sigset) a b : wf_set X -> positive_rates X -> plain (ss_tags X) ->
  exists Y, extract_in kone X a b = Ok Y.
Proof.
  intros HX Hr Hp. destruct (extract_in_eq X a b HX Hr) as (l' & Hc & ->).
  destruct (cuts_tags X _ l' HX Hp Hc) as (t' & -> & _). simpl. eauto.
Qed.

Lemma extract_in_inv (X : sigset) a b Y : wf_set X -> positive_rates X -> extract_in kone X a b = Ok Y ->
  cuts (within a b) (ss_signals X) (ss_signals Y) /\ t_dict (ss_tags Y) = t_dict (ss_tags X) /\
  set_tags (ss_signals Y) None (TObj (ss_tags X)) = Ok (ss_tags Y).
Proof.
  intros HX Hr H. destruct (extract_in_eq X a b HX Hr) as (l' & Hc & E). rewrite E in H.
  apply bind_ok in H as (t' & Ht & H). injection H as <-. simpl. split; [exact Hc|]. split; [|exact Ht].
  eapply set_tags_obj; [|exact Ht]. apply ws_tags, HX.
Qed.

(** what tags read after a time selection *)
Lemma cuts_segs P (l l' : list sync) c gs : (forall s, In s l -> sync_ok s) -> (forall s, In s l -> pos (s_rate s)) ->
  cuts P l l' -> Forall2 (fun s g => is_seg s c g) l gs ->
  exists gs', Forall2 (fun s g => is_seg s c g) l' gs' /\ restriction P gs gs'.
Proof.
  intros Hs Hr Hc. revert gs. induction Hc as [|s l l' i n Hi Hn Hc IH|s l l' i n Hi Hn Hc IH]; intros gs Hg.
  - inversion Hg; subst. exists []. split; [constructor|]. exists []. split; [constructor|reflexivity].
  - inversion Hg as [|? g ? gs0 H1 H2]; subst.
    destruct (IH (fun s H => Hs s (or_intror H)) (fun s H => Hr s (or_intror H)) gs0 H2) as (gs' & F & gs1 & R1 & R2).
    assert (Hs0 : sync_ok s) by (apply Hs; left; reflexivity). assert (Hr0 : pos (s_rate s)) by (apply Hr; left; reflexivity).
    exists (cutseg g i n :: gs'). split; [constructor; [apply cut_seg, H1|exact F]|].
    exists (cutseg g i n :: gs1). split; [constructor; [eapply iscut_restricted; eauto|exact R1]|].
    cbn [filter]. cbn [cutseg g_vals].
    rewrite firstn_length, skipn_length, (is_seg_len s c g Hs0 H1). destruct Hi as [Hi _].
    destruct (Nat.leb_spec 2 (Nat.min n (s_size s - i))); [|lia]. rewrite R2. reflexivity.
  - inversion Hg as [|? g ? gs0 H1 H2]; subst.
    destruct (IH (fun s H => Hs s (or_intror H)) (fun s H => Hr s (or_intror H)) gs0 H2) as (gs' & F & gs1 & R1 & R2).
    assert (Hs0 : sync_ok s) by (apply Hs; left; reflexivity). assert (Hr0 : pos (s_rate s)) by (apply Hr; left; reflexivity).
    exists gs'. split; [exact F|]. exists (cutseg g i n :: gs1). split; [constructor; [eapply iscut_restricted; eauto|exact R1]|].
    cbn [filter]. cbn [cutseg g_vals]. rewrite firstn_length.
    destruct (Nat.leb_spec 2 (Nat.min n (length (skipn i (g_vals g))))); [lia|exact R2].
Qed.

Lemma cuts_tracks (X Y : sigset) P : wf_set X -> positive_rates X -> cuts P (ss_signals X) (ss_signals Y) ->
  t_dict (ss_tags Y) = t_dict (ss_tags X) ->
  forall k p gs, tracks X k p gs -> exists gs', tracks Y k p gs' /\ restriction P gs gs'.
Proof.
  intros HX Hr Hc Ht k p gs (l & c & H1 & H2 & H3).
  destruct (cuts_segs P _ _ c gs (ws_sync X HX) Hr Hc H3) as (gs' & F & R). exists gs'. split; [|exact R].
  exists l, c. split; [|auto]. unfold reads in *. rewrite Ht. exact H1.
Qed.

(** *** determinism and composition *)
Lemma cuts_unique P (l l1 l2 : list sync) : cuts P l l1 -> cuts P l l2 -> l1 = l2.
Proof.
  intros H. revert l2. induction H as [|s l l' i n Hi Hn Hc IH|s l l' i n Hi Hn Hc IH]; intros l2 G.
  - inversion G; reflexivity.
  - inversion G as [|s0 l0 l0' i' n' Hi' Hn' Hc'|s0 l0 l0' i' n' Hi' Hn' Hc']; subst;
      destruct (iscut_unique _ _ _ _ _ _ Hi Hi') as [-> E]; [|lia]. rewrite E by lia. f_equal. apply IH, Hc'.
  - inversion G as [|s0 l0 l0' i' n' Hi' Hn' Hc'|s0 l0 l0' i' n' Hi' Hn' Hc']; subst;
      destruct (iscut_unique _ _ _ _ _ _ Hi Hi') as [-> E]; [lia|]. apply IH, Hc'.
Qed.

Lemma cuts_ext P Q (l l' : list sync) :
  (forall s j, In s l -> j < s_size s -> P (sample_time s (Z.of_nat j)) = Q (sample_time s (Z.of_nat j))) ->
  cuts P l l' -> cuts Q l l'.
Proof.
  intros H Hc. induction Hc as [|s l l' i n Hi Hn Hc IH|s l l' i n Hi Hn Hc IH]; [constructor| |].
  - constructor; [|exact Hn|apply IH; intros; apply H; [right; assumption|assumption]].
    eapply iscut_ext; [|exact Hi]. intros j Hj. apply H; [left; reflexivity|exact Hj].
  - eapply cuts_drop; [|exact Hn|apply IH; intros; apply H; [right; assumption|assumption]].
    eapply iscut_ext; [|exact Hi]. intros j Hj. apply H; [left; reflexivity|exact Hj].
Qed.

Lemma cuts_compose P Q (l l1 l2 : list sync) : (forall s, In s l -> pos (s_rate s)) ->
  cuts P l l1 -> cuts Q l1 l2 -> cuts (fun t => P t && Q t) l l2.
Proof.
  intros Hr H. revert l2. induction H as [|s l l' i n Hi Hn Hc IH|s l l' i n Hi Hn Hc IH]; intros l2 G.
  - inversion G; constructor.
  - assert (Hr0 : pos (s_rate s)) by (apply Hr; left; reflexivity).
    inversion G as [|s0 l0 l0' i' n' Hi' Hn' Hc'|s0 l0 l0' i' n' Hi' Hn' Hc']; subst.
    + rewrite cut_cut; [|exact Hr0|apply Hi']. constructor; [eapply iscut_cut; eauto|exact Hn'|].
      apply IH; [intros; apply Hr; right; assumption|exact Hc'].
    + eapply cuts_drop; [eapply iscut_cut; eauto|exact Hn'|]. apply IH; [intros; apply Hr; right; assumption|exact Hc'].
  - destruct (iscut_few P s i n (fun t => P t && Q t) Hi Hn) as (i' & n' & Hi' & Hn').
    { intros t Ht. apply andb_true_iff in Ht. tauto. }
    eapply cuts_drop; [exact Hi'|exact Hn'|]. apply IH; [intros; apply Hr; right; assumption|exact G].
Qed.

Lemma cuts_positive P (X Y : sigset) : positive_rates X -> cuts P (ss_signals X) (ss_signals Y) -> positive_rates Y.
Proof.
  intros Hr Hc s Hs. destruct (cuts_In _ _ _ _ Hc Hs) as (s0 & i & n & G1 & G2 & G3 & ->). simpl. apply Hr, G1.
Qed.

Lemma within_both a b c d t : within a b t && within c d t = within (@pmax QA a c) (@pmin QA b d) t.
Proof.
  apply eq_iff_eq_true. rewrite andb_true_iff, !within_iff, pmax_le, pmin_ge. tauto.
Qed.

Theorem extract_nested (X : sigset) a b c d : wf_set X -> positive_rates X -> plain (ss_tags X) ->
  exists Y, extract_in kone X (@pmax QA a c) (@pmin QA b d) = Ok Y /\
            (Z <- extract_in kone X a b ;; extract_in kone Z c d) = Ok Y.
Proof.
  intros HX Hr Hp. destruct (extract_in_ok X (@pmax QA a c) (@pmin QA b d) HX Hr Hp) as (Y & HY).
  exists Y. split; [exact HY|]. destruct (extract_in_ok X a b HX Hr Hp) as (Z & HZ). rewrite HZ. cbn [bind].
  assert (HwZ : wf_set Z) by (eapply (extract_in_wf kone QA_ord); eauto).
  destruct (extract_in_inv _ _ _ _ HX Hr HZ) as (CZ & DZ & TZ). destruct (extract_in_inv _ _ _ _ HX Hr HY) as (CY & DY & TY).
  assert (HrZ : positive_rates Z) by (eapply cuts_positive; eauto).
  assert (HpZ : plain (ss_tags Z)) by (intros k l Hk; apply (Hp k l); unfold reads in *; rewrite <- DZ; exact Hk).
  destruct (extract_in_ok Z c d HwZ HrZ HpZ) as (W & HW). rewrite HW.
  destruct (extract_in_inv _ _ _ _ HwZ HrZ HW) as (CW & DW & TW). f_equal.
  assert (E : ss_signals W = ss_signals Y).
  { eapply cuts_unique; [|exact CY]. eapply cuts_ext; [|eapply cuts_compose; [exact Hr|exact CZ|exact CW]].
    intros s j _ _. apply within_both. }
  destruct W as [wl wt], Y as [yl yt]. simpl in *. subst yl. f_equal.
  destruct wl as [|s0 wl].
  - (* no run left: both tags are rebuilt from the same dictionary *)
    unfold set_tags in TW, TY. rewrite (plain_method (ss_tags Z) "keys" HpZ) in TW by (simpl; auto 10).
    rewrite (plain_method (ss_tags X) "keys" Hp) in TY by (simpl; auto 10). simpl in TW, TY.
    change (tags_new None (arg_dict (TObj (ss_tags Z))) = Ok wt) in TW.
    change (tags_new None (arg_dict (TObj (ss_tags X))) = Ok yt) in TY.
    assert (E : arg_dict (TObj (ss_tags Z)) = arg_dict (TObj (ss_tags X))) by (simpl; rewrite DZ; reflexivity).
    rewrite E in TW. congruence.
  - destruct (cuts_tags Z _ _ HwZ HpZ CW) as (t1 & T1 & _ & E1). destruct (cuts_tags X _ _ HX Hp CY) as (t2 & T2 & _ & E2).
    rewrite E1 in T1 by discriminate. rewrite E2 in T2 by discriminate.
    assert (ss_tags Z = ss_tags X).
    { destruct (ss_signals Z) as [|z zs] eqn:EZ; [inversion CW|].
      destruct (cuts_tags X _ _ HX Hp CZ) as (t3 & T3 & _ & E3). rewrite E3 in T3 by discriminate. congruence. }
    congruence.
Qed.
End ExtractSet.
