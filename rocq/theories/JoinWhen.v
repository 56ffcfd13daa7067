(** Exactly when join succeeds, and what it raises otherwise. *)
From Verif Require Import Base BaseLemmas SliceLemmas Arith OrdLaws TagsModel SpecTags TagsProofs
  SyncModel SetModel SpecSet SetProofs SpecSelect TrackProofs SelectProofs OrderProofs JoinProofs JoinOk ExcludeProofs SpecOutcome.

Section JoinWhen.
Context {A : Arith} {V K : Type} (kone : K) (L : OrdLaws A).
Notation sync := (sync A V K).
Notation sigset := (@sigset A V K).

Lemma tagged_dec (t : tags) c :
  (exists k l, reads t k l /\ In c l) \/ (forall k l, reads t k l -> ~ In c l).
Proof.
  destruct (existsb (fun kl => memb Nat.eqb c (snd kl)) (t_dict t)) eqn:E.
  - left. apply existsb_exists in E as ([k l] & Hi & Hm). exists k, l. split; [exact Hi|].
    apply (memb_In Nat.eqb nat_eqb_iff) in Hm. exact Hm.
  - right. intros k l Hl Hc. apply not_true_iff_false in E. apply E. apply existsb_exists. exists (k, l).
    split; [exact Hl|]. apply (memb_In Nat.eqb nat_eqb_iff). exact Hc.
Qed.

Lemma same_keys_sym (t t' : tags) : same_keys t t' -> same_keys t' t.
Proof. intros H k n. symmetry. apply H. Qed.

(** either the check of the permutation raises, or no channel is split *)
Lemma reorder_split (Y : sigset) t : tags_valid (ss_tags Y) -> tags_valid t ->
  tags_eqb (ss_tags Y) t = false -> same_keys (ss_tags Y) t ->
  reorder kone Y (TObj t) = Err AssertionError \/ aliases_kept t (ss_tags Y).
Proof.
  intros HvY Hv Heq Hk. unfold reorder. rewrite Heq. cbv zeta.
  set (new := arg_dict (TObj t)). set (self := t_dict (ss_tags Y)).
  assert (Hnew : forall k v, In (k, v) new <-> exists l, reads t k l /\ v = RTuple (map Z.of_nat l)).
  { intros k v. unfold new. simpl. rewrite in_map_iff. split.
    - intros ([k1 l1] & E & H). injection E as <- <-. eauto.
    - intros (l & H & ->). exists (k, l). auto. }
  assert (Hself : forall k l, reads t k l -> exists l0, dget k self = Some l0 /\ length l0 = length l).
  { intros k l Hl. destruct (proj2 (Hk k (length l)) (ex_intro _ l (conj Hl eq_refl))) as (l0 & Hl0 & E).
    exists l0. split; [apply reads_dget; assumption|exact E]. }
  assert (Ekeys : seteqb String.eqb (dkeys new) (dkeys self) = true).
  { apply (seteqb_iff _ string_eqb_iff). intros k. unfold new. rewrite dkeys_obj. unfold dkeys. rewrite !in_map_iff.
    split; intros ([k1 l1] & E & H); simpl in E; subst k1.
    - destruct (Hself k l1 H) as (l0 & Hl0 & _). exists (k, l0). split; [reflexivity|]. apply dget_In. exact Hl0.
    - destruct (proj1 (Hk k (length l1)) (ex_intro _ l1 (conj H eq_refl))) as (l0 & Hl0 & E). exists (k, l0). auto. }
  rewrite Ekeys. simpl bind at 1.
  match goal with |- context [bind (mapM ?f new) _] => set (F := f) end.
  assert (HF : mapM F new = Ok (map (fun _ => tt) new)).
  { apply mapM_ok_all. intros [k v] Hkv. apply Hnew in Hkv as (l & Hl & ->). destruct (Hself k l Hl) as (l0 & E0 & El).
    unfold F. simpl. fold self. rewrite E0, map_length, El, Nat.eqb_refl. reflexivity. }
  rewrite HF. simpl bind at 1.
  rewrite (mapM_ok_all _ (fun kv => entries (snd kv))).
  2:{ intros [k v] Hkv. apply Hnew in Hkv as (l & Hl & ->). reflexivity. }
  simpl bind at 1.
  set (fself := fun kv : string * raw => match dget (fst kv) self with Some l => l | None => [] end).
  set (fnew := fun kv : string * raw => entries (snd kv)).
  set (pairs := combine (concat (map fself new)) (concat (map fnew new))).
  set (inv_set := fun ni : Z => dedup Nat.eqb (map fst (filter (fun p => Z.eqb (snd p) ni) pairs))).
  assert (Hlenf : forall x, In x new -> length (fself x) = length (fnew x)).
  { intros [k v] Hkv. apply Hnew in Hkv as (l & Hl & ->). destruct (Hself k l Hl) as (l0 & E0 & El).
    unfold fself, fnew. simpl. rewrite E0, map_length. exact El. }
  match goal with |- context [check (forallb ?f ?l) AssertionError] =>
    change (forallb f l) with (forallb (fun ni => length (inv_set ni) =? 1) (concat (map fnew new))) end.
  destruct (forallb (fun ni => length (inv_set ni) =? 1) (concat (map fnew new))) eqn:E; [right|left; reflexivity].
  intros k l p k2 l2 p2 c m m2 Hl Hl2 Hc Hc2 Hm Hm2.
  assert (Hin : forall k l p m, reads t k l -> nth_error l p = Some c -> reads (ss_tags Y) k m ->
                exists c0, nth_error m p = Some c0 /\ In c0 (inv_set (Z.of_nat c))).
  { clear - Hself Hnew Hlenf HvY. intros k l p m Hl Hc Hm. destruct (Hself k l Hl) as (l0 & E0 & El).
    apply (reads_dget _ _ _ HvY) in Hm. fold self in Hm. assert (m = l0) by congruence. subst m.
    destruct (nth_error l0 p) as [c0|] eqn:Hc0; [|apply nth_error_None in Hc0; apply nth_error_Some_lt in Hc; lia].
    exists c0. split; [reflexivity|]. unfold inv_set. apply (In_dedup _ nat_eqb_iff).
    apply in_map_iff. exists (c0, Z.of_nat c). split; [reflexivity|]. apply filter_In. split; [|apply Z.eqb_refl].
    apply (combine_concat_In fself fnew new (k, RTuple (map Z.of_nat l)) p); [exact Hlenf|apply Hnew; eauto| |].
    - unfold fself. simpl. rewrite E0. exact Hc0.
    - unfold fnew. simpl. rewrite nth_error_map, Hc. reflexivity. }
  destruct (Hin k l p m Hl Hc Hm) as (c0 & E0 & H0). destruct (Hin k2 l2 p2 m2 Hl2 Hc2 Hm2) as (c1 & E1 & H1).
  rewrite E0, E1. f_equal. rewrite forallb_forall in E. specialize (E (Z.of_nat c)).
  assert (Hz : In (Z.of_nat c) (concat (map fnew new))).
  { apply in_concat. exists (map Z.of_nat l). split; [|apply in_map; eapply nth_error_In; eauto].
    apply in_map_iff. exists (k, RTuple (map Z.of_nat l)). split; [reflexivity|]. apply Hnew. eauto. }
  specialize (E Hz). apply Nat.eqb_eq in E. destruct (inv_set (Z.of_nat c)) as [|x [|y r]]; try discriminate.
  destruct H0 as [<-|[]], H1 as [<-|[]]. reflexivity.
Qed.

Lemma reorder_untagged (Y : sigset) t i : wf_set Y -> plain (ss_tags Y) -> tags_valid t ->
  tags_eqb (ss_tags Y) t = false -> same_keys (ss_tags Y) t -> aliases_kept t (ss_tags Y) ->
  ss_signals Y <> [] -> i < t_n (ss_tags Y) -> (forall k l, reads t k l -> ~ In i l) ->
  reorder kone Y (TObj t) = Err KeyError.
Proof.
  intros HY HpY Hv Heq Hk Hal Hne Hi Hu.
  destruct (reorder_reduce kone Y t (ws_tags Y HY) Hv Heq Hk Hal) as (inv & Hinv & Hno & ->).
  assert (HnY : nb_channels Y = t_n (ss_tags Y)).
  { apply nb_channels_wf; [exact HY|]. apply plain_no; [exact HpY|simpl; auto 10]. }
  destruct (ss_signals Y) as [|s r]; [congruence|]. simpl mapM. rewrite HnY.
  rewrite (mapM_err_all inv (seq 0 (t_n (ss_tags Y))) KeyError); [reflexivity| |].
  - intros c _. destruct (tagged_dec t c) as [(k & l & Hl & Hc)|Hc]; [right|left; apply Hno, Hc].
    apply In_nth_error in Hc as [p Hp]. destruct (Hinv k l p c Hl Hp) as (l0 & c0 & _ & _ & E). eauto.
  - exists i. split; [apply in_seq; lia|apply Hno, Hu].
Qed.

Lemma reorder_short (Y : sigset) t : wf_set Y -> plain (ss_tags Y) -> tags_valid t -> plain t ->
  tags_eqb (ss_tags Y) t = false -> same_keys (ss_tags Y) t -> aliases_kept t (ss_tags Y) ->
  ss_signals Y <> [] -> (forall i, i < t_n (ss_tags Y) -> exists k l, reads t k l /\ In i l) ->
  t_n (ss_tags Y) < t_n t -> reorder kone Y (TObj t) = Err ValueError.
Proof.
  intros HY HpY Hv Hp Heq Hk Hal Hne Hall Hlt. pose proof (ws_tags Y HY) as HvY.
  destruct (reorder_reduce kone Y t HvY Hv Heq Hk Hal) as (inv & Hinv & Hno & ->).
  assert (HnY : nb_channels Y = t_n (ss_tags Y)).
  { apply nb_channels_wf; [exact HY|]. apply plain_no; [exact HpY|simpl; auto 10]. }
  rewrite HnY. set (n := t_n (ss_tags Y)) in *.
  destruct (mapM_ok_exists inv (seq 0 n)) as [idx Hidx].
  { intros i Hi. apply in_seq in Hi. destruct (Hall i ltac:(lia)) as (k & l & Hl & Hil).
    apply In_nth_error in Hil as [p Hip]. destruct (Hinv k l p i Hl Hip) as (? & c0 & _ & _ & E). eauto. }
  assert (Hrange : forall c, In c idx -> c < n).
  { intros c Hc. destruct (mapM_In_r _ _ _ _ Hidx Hc) as (i & Hi & Hic). apply in_seq in Hi.
    destruct (Hall i ltac:(lia)) as (k & l & Hl & Hil). apply In_nth_error in Hil as [p Hip].
    destruct (Hinv k l p i Hl Hip) as (l0 & c0 & E0 & Hc0 & E). rewrite E in Hic.
    injection Hic as <-. apply (tv_range _ HvY k l0 c0 E0). eapply nth_error_In; eauto. }
  pose proof (mapM_length _ _ _ Hidx) as Hlidx. rewrite seq_length in Hlidx.
  assert (Hpos : 0 < n).
  { destruct (ss_signals Y) as [|s l] eqn:E; [congruence|].
    assert (Hs : In s (ss_signals Y)) by (rewrite E; left; reflexivity).
    unfold n. rewrite <- (ws_chan Y HY s Hs). pose proof (so_chan _ (ws_sync Y HY s Hs)).
    destruct (s_data s); [congruence|simpl; lia]. }
  rewrite Hidx. simpl bind.
  destruct (mapM_ok_exists (fun s => s_select kone s idx) (ss_signals Y)) as [signals Hsig].
  { intros s Hs. pose proof (ws_sync Y HY s Hs) as Hok. pose proof (ws_chan Y HY s Hs) as Hch.
    assert (Hsel : forall i, In i idx -> i < length (s_data s)) by (intros i Hi; rewrite Hch; auto).
    destruct (mapM_ok_exists (nth_res (s_data s)) idx) as [d Hd].
    { intros i Hi. specialize (Hsel i Hi). destruct (nth_error (s_data s) i) as [x|] eqn:E.
      - exists x. apply nth_res_ok, E.
      - apply nth_error_None in E. lia. }
    destruct (mapM_ok_exists (nth_res (s_cal s)) idx) as [k Hkk].
    { intros i Hi. specialize (Hsel i Hi). rewrite <- (so_cal _ Hok) in Hsel.
      destruct (nth_error (s_cal s) i) as [x|] eqn:E.
      - exists x. apply nth_res_ok, E.
      - apply nth_error_None in E. lia. }
    unfold s_select. rewrite Hd, Hkk. simpl. apply sync_new_exists.
    - apply mapM_length in Hd. destruct d; [simpl in Hd; lia|discriminate].
    - apply mapM_length in Hd, Hkk. congruence.
    - intros a b Ha Hb. destruct (mapM_In_r _ _ _ _ Hd Ha) as (i & _ & Hi).
      destruct (mapM_In_r _ _ _ _ Hd Hb) as (j & _ & Hj). apply nth_res_ok in Hi, Hj.
      rewrite (so_size _ Hok a), (so_size _ Hok b); [reflexivity| |]; eapply nth_error_In; eauto. }
  rewrite Hsig. simpl bind. apply mapM_Forall2 in Hsig.
  assert (Hrun : Forall2 (run_selected idx) (ss_signals Y) signals).
  { assert (Hok : Forall (fun s => sync_ok s) (ss_signals Y)) by (apply Forall_forall; apply (ws_sync Y HY)).
    clear - Hsig Hok. induction Hsig as [|s s' l l' Hs HF IH]; [constructor|]. inversion Hok; subst.
    constructor; [eapply s_select_run; eassumption|auto]. }
  assert (Hsorted : sort_signals signals = signals).
  { apply sort_signals_sorted_id. eapply StronglySorted_map_iff; [exact Hrun| |apply wf_sorted; exact HY].
    intros x y x' y' (_ & Ex & _) (_ & Ey & _). unfold sync_lt. rewrite Ex, Ey. auto. }
  assert (Hlen : forall s, In s signals -> length (s_data s) = n).
  { intros s Hs. apply In_nth_error in Hs as [j Hj].
    destruct (Forall2_nth_error_r _ _ _ _ _ Hrun Hj) as (s0 & _ & (_ & _ & _ & Hd & _)).
    apply Forall2_len in Hd. congruence. }
  rewrite set_of_syncs_ok; rewrite ?Hsorted.
  - assert (E : set_tags signals None (TObj t) = Err ValueError); [|rewrite E; reflexivity].
    destruct signals as [|s l]; [apply Forall2_len in Hrun; destruct (ss_signals Y); [congruence|discriminate]|].
    unfold set_tags, nb_channels_of. rewrite (Hlen s) by (left; reflexivity). rewrite (plain_indices t Hp). simpl idx_list.
    destruct (Nat.eqb_spec n 0); [lia|].
    assert (F : forallb (fun i => i <? n) (seq 0 (t_n t)) = false).
    { apply not_true_iff_false. intros F. rewrite forallb_forall in F. specialize (F n).
      rewrite Nat.ltb_irrefl in F. assert (In n (seq 0 (t_n t))) by (apply in_seq; lia). discriminate (F H). }
    rewrite F. reflexivity.
  - intros s s' Hs Hs'. rewrite !Hlen by assumption. reflexivity.
  - intros s Hs. apply In_nth_error in Hs as [j Hj].
    destruct (Forall2_nth_error_r _ _ _ _ _ Hrun Hj) as (s0 & Hs0 & (Er & _)).
    rewrite Er. apply (ws_rate Y HY). eapply nth_error_In; eauto.
  - rewrite (same_times_interval (ss_signals Y)); [apply no_overlap_wf, HY|].
    eapply Forall2_impl; [|exact Hrun]. intros s s' (E1 & E2 & E3 & _). auto.
Qed.

Lemma join_two (X Y : sigset) : wf_set X -> join kone X [ASet Y] =
  (Y' <- reorder kone Y (TObj (ss_tags X)) ;; set_of_syncs (TObj (ss_tags X)) (ss_signals X ++ ss_signals Y')).
Proof.
  intros HX. unfold join, set_new. simpl. rewrite reorder_self by exact HX. simpl.
  destruct (reorder kone Y (TObj (ss_tags X))); simpl; [rewrite app_nil_r|]; reflexivity.
Qed.

Lemma eqb_same (t t' : tags) : tags_valid t -> tags_valid t' -> plain t -> plain t' ->
  (tags_eqb t t' = true <-> tags_same t t').
Proof.
  intros Hv Hv' Hp Hp'.
  assert (N : forall u, plain u -> forall l, ~ reads u "indices" l).
  { intros u Hu l Hl. apply (Hu _ _ Hl). simpl; auto. }
  split.
  - intros H. pose proof (tags_eqb_dget t t' Hv Hv' H) as E. split.
    + destruct (Nat.eq_dec (t_n t) (t_n t')) as [e|n]; [exact e|]. rewrite (tags_eqb_n t t' Hp Hp' n) in H. discriminate.
    + intros k l. rewrite (reads_dget t k l Hv), (reads_dget t' k l Hv'), E. reflexivity.
  - intros [Hn Hr]. unfold tags_eqb. rewrite (plain_indices t Hp), (plain_indices t' Hp').
    rewrite !andb_true_iff, !dict_subb_iff by (apply Hv || apply Hv'). split; [split|].
    + intros k v E. apply (reads_dget t k v Hv) in E. apply (reads_dget t' k v Hv'). apply Hr, E.
    + intros k v E. apply (reads_dget t' k v Hv') in E. apply (reads_dget t k v Hv). apply Hr, E.
    + simpl. apply Nat.eqb_eq. exact Hn.
Qed.

Lemma reorder_eq (Y : sigset) t : tags_eqb (ss_tags Y) t = true -> reorder kone Y (TObj t) = Ok Y.
Proof. intros E. unfold reorder. rewrite E. reflexivity. Qed.

Lemma set_of_syncs_overlap tg (signals : list sync) :
  (forall s, In s signals -> neqb A (s_rate s) (nzero A) = false) ->
  no_overlap (map (fun s => (s_start s, last_time s)) (sort_signals signals)) = false ->
  set_of_syncs tg signals = Err AssertionError.
Proof.
  intros Hr Ho. unfold set_of_syncs.
  destruct (length (dedup Nat.eqb (map (fun s => length (s_data s)) signals)) <=? 1); [|reflexivity]. simpl.
  rewrite (proj2 (mapM_interval signals _) (conj Hr eq_refl)). simpl.
  unfold sort_intervals. rewrite (sort_map sync_lt) by reflexivity.
  change (stable_sort sync_lt signals) with (sort_signals signals). rewrite Ho. reflexivity.
Qed.

(** after the renumbering, only the times decide *)
Lemma joined_iff (X Y Y' : sigset) : wf_set X -> wf_set Y -> plain (ss_tags X) -> ss_signals Y <> [] ->
  t_n (ss_tags Y') = t_n (ss_tags X) -> reorder kone Y (TObj (ss_tags X)) = Ok Y' ->
  (forall s, In s (ss_signals X ++ ss_signals Y) -> forward s) -> distinct_starts (ss_signals X ++ ss_signals Y) ->
  (disjoint_runs (ss_signals X ++ ss_signals Y) ->
     exists Z, set_of_syncs (TObj (ss_tags X)) (ss_signals X ++ ss_signals Y') = Ok Z) /\
  (~ disjoint_runs (ss_signals X ++ ss_signals Y) ->
     set_of_syncs (TObj (ss_tags X)) (ss_signals X ++ ss_signals Y') = Err AssertionError).
Proof.
  intros HX HY HpX HneY HnY' HY' Hf Hd.
  pose proof (reorder_wf kone L Y _ Y' HY HY') as HwY'.
  apply (reorder_spec kone L) in HY' as (HF & Hky & Hst); [|exact HY|apply (ws_tags X HX)].
  assert (HP : Forall2 (fun s s' => s_rate s' = s_rate s /\ s_start s' = s_start s /\ s_size s' = s_size s)
                 (ss_signals X ++ ss_signals Y) (ss_signals X ++ ss_signals Y')).
  { apply Forall2_app.
    - clear. induction (ss_signals X) as [|s l IH]; constructor; auto.
    - eapply Forall2_impl; [|exact HF]. intros s s' (E1 & E2 & E3 & _). auto. }
  assert (HP' : Forall2 (fun s s' => s_rate s' = s_rate s /\ s_start s' = s_start s /\ s_size s' = s_size s)
                 (ss_signals X ++ ss_signals Y') (ss_signals X ++ ss_signals Y)).
  { clear - HP. induction HP as [|s s' l l' (E1 & E2 & E3) _ IH]; constructor; auto. }
  assert (Hlast : forall s s' : sync, s_rate s' = s_rate s /\ s_start s' = s_start s /\ s_size s' = s_size s -> last_time s' = last_time s).
  { intros s s' (E1 & E2 & E3). unfold last_time, sample_time. rewrite E1, E2, E3. reflexivity. }
  assert (Hchan : forall s, In s (ss_signals X ++ ss_signals Y') -> length (s_data s) = t_n (ss_tags X)).
  { intros s Hs. apply in_app_iff in Hs as [Hs|Hs]; [apply (ws_chan X HX s Hs)|]. rewrite (ws_chan Y' HwY' s Hs). exact HnY'. }
  assert (Hrate : forall s, In s (ss_signals X ++ ss_signals Y') -> neqb A (s_rate s) (nzero A) = false).
  { intros s Hs. apply in_app_iff in Hs as [Hs|Hs]; [apply (ws_rate X HX s Hs)|apply (ws_rate Y' HwY' s Hs)]. }
  assert (Hf' : forall s, In s (ss_signals X ++ ss_signals Y') -> forward s).
  { intros s' Hs'. apply In_nth_error in Hs' as [j Hj]. destruct (Forall2_nth_error_r _ _ _ _ _ HP Hj) as (s & Hs & HE).
    unfold forward. rewrite (Hlast s s' HE). destruct HE as (_ & -> & _). apply Hf. eapply nth_error_In; eauto. }
  assert (Hd' : distinct_starts (ss_signals X ++ ss_signals Y')).
  { eapply FOP_Forall2; [exact HP| |exact Hd]. intros x y x' y' (_ & -> & _) (_ & -> & _). auto. }
  assert (Hdj : forall l l', Forall2 (fun s s' : sync => s_rate s' = s_rate s /\ s_start s' = s_start s /\ s_size s' = s_size s) l l' ->
            disjoint_runs l -> disjoint_runs l').
  { intros l l' HPl. apply (FOP_Forall2 _ _ _ l l' HPl). intros x y x' y' Ex Ey. simpl.
    rewrite (Hlast x x' Ex), (Hlast y y' Ey). destruct Ex as (_ & -> & _), Ey as (_ & -> & _). auto. }
  split; intros H.
  - rewrite set_of_syncs_ok; [|intros s s' Hs Hs'; rewrite !Hchan by assumption; reflexivity|exact Hrate|apply (no_overlap_iff L); eauto].
    destruct (set_tags_obj_ok (sort_signals (ss_signals X ++ ss_signals Y')) (ss_tags X) (ws_tags X HX) HpX) as (t' & Ht' & _ & _).
    + destruct (sort_signals (ss_signals X ++ ss_signals Y')) as [|s l] eqn:E; [left; reflexivity|right]. exists s. split; [reflexivity|].
      assert (Hs : In s (ss_signals X ++ ss_signals Y')) by (apply sort_signals_In; rewrite E; left; reflexivity).
      split; [apply Hchan, Hs|]. rewrite <- (Hchan s Hs).
      assert (Hok : sync_ok s) by (apply in_app_iff in Hs as [Hs|Hs]; [apply (ws_sync X HX s Hs)|apply (ws_sync Y' HwY' s Hs)]).
      pose proof (so_chan _ Hok). destruct (s_data s); [congruence|simpl; lia].
    + rewrite Ht'. simpl. eauto.
  - apply set_of_syncs_overlap; [exact Hrate|]. apply not_true_iff_false. intros F. apply H.
    apply (no_overlap_iff L) in F; [|assumption|assumption]. apply (Hdj _ _ HP' F).
Qed.

Lemma stored (t : tags) k l : In (k, l) (store (arg_dict (TObj t))) <-> reads t k l.
Proof.
  assert (E : forall l : list nat, map Z.to_nat (map Z.of_nat l) = l).
  { intros m. rewrite map_map. erewrite map_ext; [apply map_id|]. intros a. apply Nat2Z.id. }
  rewrite In_store. simpl. split.
  - intros (v & Hv & ->). apply in_map_iff in Hv as ([k0 l0] & E0 & Hl). simpl in E0. injection E0 as <- <-.
    simpl. rewrite E. exact Hl.
  - intros H. exists (RTuple (map Z.of_nat l)). split; [apply in_map_iff; exists (k, l); auto|]. simpl. rewrite E. reflexivity.
Qed.

Theorem join_when (X Y : sigset) : wf_set X -> wf_set Y -> plain (ss_tags X) -> plain (ss_tags Y) ->
  ss_signals X <> [] -> ss_signals Y <> [] ->
  (forall s, In s (ss_signals X ++ ss_signals Y) -> forward s) -> distinct_starts (ss_signals X ++ ss_signals Y) ->
  ((exists Z, join kone X [ASet Y] = Ok Z) <->
   alignable (ss_tags X) (ss_tags Y) /\ disjoint_runs (ss_signals X ++ ss_signals Y)).
Proof.
  intros HX HY HpX HpY HneX HneY Hf Hd. rewrite join_two by exact HX.
  pose proof (ws_tags X HX) as HvX. pose proof (ws_tags Y HY) as HvY.
  split.
  - intros [Z HZ]. apply bind_ok in HZ as (Y' & HY' & HZ).
    assert (Hk : same_keys (ss_tags Y) (ss_tags X)).
    { pose proof HY' as H. apply (reorder_spec kone L) in H as (_ & Hk & Hst); [|exact HY|exact HvX].
      intros k n. rewrite (Hk k n). split; intros (l & Hl & E); exists l; (split; [|exact E]); apply (Hst k l) || apply (Hst k l) in Hl.
      - apply stored in Hl. exact Hl.
      - apply stored. exact Hl. }
    assert (G : t_n (ss_tags X) = t_n (ss_tags Y) /\
                (tags_same (ss_tags X) (ss_tags Y) \/ all_tagged (ss_tags X) /\ aliases_kept (ss_tags X) (ss_tags Y)) /\
                t_n (ss_tags Y') = t_n (ss_tags X)).
    { destruct (tags_eqb (ss_tags Y) (ss_tags X)) eqn:Eq.
      - rewrite (reorder_eq Y _ Eq) in HY'. injection HY' as <-. apply eqb_same in Eq as [En Er]; try assumption.
        split; [symmetry; exact En|]. split; [left; split; [symmetry; exact En|intros k l; symmetry; apply Er]|exact En].
      - destruct (reorder_split Y (ss_tags X) HvY HvX Eq Hk) as [E|Hal]; [congruence|].
        assert (Hall : forall i, i < t_n (ss_tags Y) -> exists k l, reads (ss_tags X) k l /\ In i l).
        { intros i Hi. destruct (tagged_dec (ss_tags X) i) as [H|H]; [exact H|exfalso].
          rewrite (reorder_untagged Y (ss_tags X) i) in HY'; try assumption. discriminate. }
        assert (H1 : t_n (ss_tags Y) <= t_n (ss_tags X)).
        { destruct (le_lt_dec (t_n (ss_tags Y)) (t_n (ss_tags X))) as [l|l]; [exact l|].
          destruct (Hall _ l) as (k & m & Hm & Hi). pose proof (tv_range _ HvX k m _ Hm Hi). lia. }
        assert (H2 : t_n (ss_tags X) <= t_n (ss_tags Y)).
        { destruct (le_lt_dec (t_n (ss_tags X)) (t_n (ss_tags Y))) as [l|l]; [exact l|].
          rewrite (reorder_short Y (ss_tags X)) in HY'; try assumption. discriminate. }
        assert (En : t_n (ss_tags X) = t_n (ss_tags Y)) by lia. split; [exact En|].
        assert (Ht : all_tagged (ss_tags X)) by (intros i Hi; apply Hall; lia). split; [right; auto|].
        destruct (reorder_ok kone Y (ss_tags X)) as (Y2 & E2 & En2); try assumption. congruence. }
    destruct G as (En & Ha & En'). split; [split; [apply same_keys_sym, Hk|auto]|].
    destruct (joined_iff X Y Y') as [_ Hno]; try assumption.
    destruct (no_overlap (map (fun s => (s_start s, last_time s)) (sort_signals (ss_signals X ++ ss_signals Y)))) eqn:E.
    + apply (no_overlap_iff L) in E; assumption.
    + exfalso. rewrite Hno in HZ; [discriminate|]. intros F. apply (no_overlap_iff L) in F; try assumption. congruence.
  - intros [(Hk & En & Ha) Hdj]. apply same_keys_sym in Hk.
    assert (G : exists Y', reorder kone Y (TObj (ss_tags X)) = Ok Y' /\ t_n (ss_tags Y') = t_n (ss_tags X)).
    { destruct Ha as [[_ Hr]|[Ht Hal]].
      - exists Y. split; [|symmetry; exact En]. apply reorder_eq, eqb_same; try assumption.
        split; [symmetry; exact En|]. intros k l. symmetry. apply Hr.
      - apply reorder_ok; assumption. }
    destruct G as (Y' & HY' & En'). rewrite HY'. simpl. apply (joined_iff X Y Y'); assumption.
Qed.

Theorem join_raises (X Y : sigset) : wf_set X -> wf_set Y -> plain (ss_tags X) -> plain (ss_tags Y) ->
  ss_signals Y <> [] -> same_keys (ss_tags X) (ss_tags Y) ->
  (~ tags_same (ss_tags X) (ss_tags Y) -> ~ aliases_kept (ss_tags X) (ss_tags Y) ->
     join kone X [ASet Y] = Err AssertionError) /\
  (forall i, ~ tags_same (ss_tags X) (ss_tags Y) -> aliases_kept (ss_tags X) (ss_tags Y) ->
     i < t_n (ss_tags Y) -> (forall k l, reads (ss_tags X) k l -> ~ In i l) -> join kone X [ASet Y] = Err KeyError) /\
  (aliases_kept (ss_tags X) (ss_tags Y) -> tagged_below (ss_tags X) (t_n (ss_tags Y)) ->
     t_n (ss_tags Y) < t_n (ss_tags X) -> join kone X [ASet Y] = Err ValueError) /\
  (alignable (ss_tags X) (ss_tags Y) -> (forall s, In s (ss_signals X ++ ss_signals Y) -> forward s) ->
     distinct_starts (ss_signals X ++ ss_signals Y) -> ~ disjoint_runs (ss_signals X ++ ss_signals Y) ->
     join kone X [ASet Y] = Err AssertionError).
Proof.
  intros HX HY HpX HpY HneY Hk. rewrite join_two by exact HX.
  pose proof (ws_tags X HX) as HvX. pose proof (ws_tags Y HY) as HvY. apply same_keys_sym in Hk.
  assert (Hne : ~ tags_same (ss_tags X) (ss_tags Y) -> tags_eqb (ss_tags Y) (ss_tags X) = false).
  { intros H. apply not_true_iff_false. intros E. apply eqb_same in E as [E1 E2]; try assumption. apply H.
    split; [symmetry; exact E1|]. intros k l. symmetry. apply E2. }
  split; [|split; [|split]].
  - intros Hn Hal. destruct (reorder_split Y (ss_tags X) HvY HvX (Hne Hn) Hk) as [E|E]; [rewrite E; reflexivity|contradiction].
  - intros i Hn Hal Hi Hu. rewrite (reorder_untagged Y (ss_tags X) i); auto.
  - intros Hal Ht Hlt. rewrite (reorder_short Y (ss_tags X)); auto. apply Hne. intros [E _]. lia.
  - intros (_ & En & Ha) Hf Hd Hdj.
    assert (G : exists Y', reorder kone Y (TObj (ss_tags X)) = Ok Y' /\ t_n (ss_tags Y') = t_n (ss_tags X)).
    { destruct Ha as [[_ Hr]|[Ht Hal]].
      - exists Y. split; [|symmetry; exact En]. apply reorder_eq, eqb_same; try assumption.
        split; [symmetry; exact En|]. intros k l. symmetry. apply Hr.
      - apply reorder_ok; assumption. }
    destruct G as (Y' & HY' & En'). rewrite HY'. simpl. apply (joined_iff X Y Y'); assumption.
Qed.
End JoinWhen.
