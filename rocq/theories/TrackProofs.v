(** Selections and joins: what tags read afterwards. No arithmetic law is used. *)
From Verif Require Import Base BaseLemmas SliceLemmas Arith TagsModel SpecTags TagsProofs
  SyncModel SetModel SpecSet SetProofs SpecSelect.

(** ** Rebuilding tags *)
Definition store (d : dict raw) : dict (list nat) :=
  map (fun kv => (fst kv, map Z.to_nat (entries (snd kv)))) d.

Lemma dkeys_store d : dkeys (store d) = dkeys d.
Proof. unfold store, dkeys. rewrite map_map. apply map_ext. reflexivity. Qed.

Lemma NoDup_app_remove {B} (l1 l2 : list B) x : NoDup (l1 ++ x :: l2) -> NoDup (l1 ++ l2) /\ ~ In x (l1 ++ l2).
Proof. split; [eapply NoDup_remove_1|eapply NoDup_remove_2]; eauto. Qed.

Lemma update_dict d : forall t t', NoDup (dkeys (t_dict t) ++ dkeys d) ->
  t_update t d = (t', Ok tt) -> t_dict t' = t_dict t ++ store d.
Proof.
  induction d as [|[k v] d IH]; intros t t' Hnd H; simpl in *.
  - injection H as <-. rewrite app_nil_r. reflexivity.
  - destruct (t_set t k v) as [t1|e] eqn:E; [|discriminate].
    apply t_set_ok in E as (_ & _ & _ & ->).
    assert (Hk : ~ In k (dkeys (t_dict t))).
    { apply NoDup_app_remove in Hnd as [_ Hn]. intros Hi; apply Hn, in_or_app; auto. }
    apply IH in H; simpl in H |- *.
    + rewrite H, dset_fresh by exact Hk. rewrite <- app_assoc. reflexivity.
    + rewrite dkeys_dset. apply dmem_false in Hk. rewrite Hk, <- app_assoc. exact Hnd.
Qed.

Lemma tags_new_dict n d t : NoDup (dkeys d) -> tags_new n d = Ok t -> t_dict t = store d.
Proof.
  unfold tags_new. intros Hnd H. binvs.
  destruct (t_update _ d) as [t' [[]|e]] eqn:E; [|discriminate]. injection Hk as <-.
  apply update_dict in E; [exact E|exact Hnd].
Qed.

Lemma store_obj t : store (arg_dict (TObj t)) = t_dict t.
Proof.
  unfold store, arg_dict. rewrite map_map. rewrite <- (map_id (t_dict t)) at 2. apply map_ext.
  intros [k l]. simpl. f_equal. rewrite map_map. rewrite <- (map_id l) at 2. apply map_ext. intros; lia.
Qed.

Lemma dkeys_obj t : dkeys (arg_dict (TObj t)) = dkeys (t_dict t).
Proof. unfold dkeys, arg_dict. rewrite map_map. apply map_ext. reflexivity. Qed.

Lemma tags_copy n t t' : tags_valid t -> tags_new n (arg_dict (TObj t)) = Ok t' -> t_dict t' = t_dict t.
Proof.
  intros Hv H. apply tags_new_dict in H; [|rewrite dkeys_obj; apply Hv]. rewrite H. apply store_obj.
Qed.

Lemma plain_no t k : plain t -> In k special_names -> dget k (t_dict t) = None.
Proof.
  intros Hp Hk. apply dget_None. intros Hin. apply dget_Some_key in Hin as [v Hv].
  apply dget_In in Hv. exact (Hp _ _ Hv Hk).
Qed.

Lemma plain_method t m : plain t -> In m special_names -> method t m = Ok tt.
Proof. intros Hp Hm. unfold method, shadows, dmem. rewrite (plain_no t m Hp Hm). reflexivity. Qed.

Lemma plain_indices t : plain t -> t_indices t = ISet (t_n t).
Proof. intros Hp. unfold t_indices. rewrite plain_no; simpl; auto 10. Qed.

(** copying plain valid tags to a range that contains them succeeds *)
Lemma tags_copy_ok m t : tags_valid t -> plain t ->
  (forall k l c, reads t k l -> In c l -> (Z.of_nat c < m)%Z) ->
  tags_new (Some m) (arg_dict (TObj t)) = Ok (mkTags (Z.to_nat m) (t_dict t)).
Proof.
  intros Hv Hp Hr.
  assert (Hno : ~ In "indices"%string (map fst (arg_dict (TObj t)))).
  { change (map fst (arg_dict (TObj t))) with (dkeys (arg_dict (TObj t))). rewrite dkeys_obj.
    apply dget_None. apply plain_no; [exact Hp|simpl; auto 10]. }
  destruct (proj2 (tags_new_ok_iff (Some m) (arg_dict (TObj t)) Hno)) as [t' Ht'].
  - intros k v Hkv. simpl in Hkv. apply in_map_iff in Hkv as ([k' l] & E & Hin). injection E as <- <-.
    simpl. split.
    + intros [Hil|Hil]; apply (Hp _ _ Hin); rewrite Hil; simpl; auto 10.
    + split; [exact (tv_names _ Hv _ _ Hin)|]. simpl. split.
      * pose proof (tv_nonempty _ Hv _ _ Hin). destruct l; [congruence|discriminate].
      * intros z Hz. apply in_map_iff in Hz as (c & <- & Hc). specialize (Hr _ _ _ Hin Hc). lia.
  - rewrite Ht'. f_equal. pose proof (tags_copy _ _ _ Hv Ht') as Hd. pose proof (tags_new_n _ _ _ Ht') as Hn.
    destruct t' as [n d]; simpl in *. subst. reflexivity.
Qed.

Lemma tags_copy_infer t : tags_valid t -> plain t ->
  exists t', tags_new None (arg_dict (TObj t)) = Ok t' /\ t_dict t' = t_dict t.
Proof.
  intros Hv Hp.
  assert (Hno : ~ In "indices"%string (map fst (arg_dict (TObj t)))).
  { change (map fst (arg_dict (TObj t))) with (dkeys (arg_dict (TObj t))). rewrite dkeys_obj.
    apply dget_None. apply plain_no; [exact Hp|simpl; auto 10]. }
  destruct (proj2 (tags_infer_ok_iff (arg_dict (TObj t)) Hno)) as [t' Ht'].
  - intros k v Hkv. simpl in Hkv. apply in_map_iff in Hkv as ([k' l] & E & Hin). injection E as <- <-.
    simpl. split.
    + intros [Hil|Hil]; apply (Hp _ _ Hin); rewrite Hil; simpl; auto 10.
    + split; [exact (tv_names _ Hv _ _ Hin)|]. simpl. split.
      * pose proof (tv_nonempty _ Hv _ _ Hin). destruct l; [congruence|discriminate].
      * intros z Hz. apply in_map_iff in Hz as (c & <- & Hc). lia.
  - exists t'. split; [exact Ht'|]. eapply tags_copy; eauto.
Qed.

Section Track.
Context {A : Arith} {V K : Type} (kone : K).
Notation sync := (sync A V K).
Notation sigset := (@sigset A V K).

Lemma set_tags_obj (signals : list sync) old t t' : tags_valid t ->
  set_tags signals old (TObj t) = Ok t' -> t_dict t' = t_dict t.
Proof. intros Hv H. unfold set_tags in H. binvs. eapply tags_copy; eauto. Qed.

Lemma set_tags_obj_ok (signals : list sync) t : tags_valid t -> plain t ->
  (signals = [] \/ exists s, hd_error signals = Some s /\ length (s_data s) = t_n t /\ 0 < t_n t) ->
  exists t', set_tags signals None (TObj t) = Ok t' /\ t_dict t' = t_dict t /\
             (signals <> [] -> t' = t).
Proof.
  intros Hv Hp Hs. unfold set_tags. rewrite (plain_method t "keys" Hp) by (simpl; auto 10).
  rewrite (plain_indices t Hp). simpl idx_list.
  destruct Hs as [->|(s & Hs & Hn & Hpos)].
  - simpl. destruct (tags_copy_infer t Hv Hp) as (t' & Ht' & Hd). exists t'. simpl in Ht'. rewrite Ht'. auto.
    split; [reflexivity|]. split; [exact Hd|congruence].
  - destruct signals as [|s0 l]; [discriminate|]. injection Hs as ->.
    unfold nb_channels_of. rewrite Hn. destruct (Nat.eqb_spec (t_n t) 0); [lia|].
    assert (E : forallb (fun i => i <? t_n t) (seq 0 (t_n t)) = true).
    { apply forallb_forall. intros i Hi. apply in_seq in Hi. apply Nat.ltb_lt. lia. }
    rewrite E. exists t. split; [|auto]. unfold bind, check.
    change (tags_new (Some (Z.of_nat (t_n t))) (arg_dict (TObj t)) = Ok t).
    rewrite tags_copy_ok; [|assumption|assumption|].
    + rewrite Nat2Z.id. destruct t; reflexivity.
    + intros k l0 c Hr Hc. pose proof (tv_range _ Hv _ _ _ Hr Hc). lia.
Qed.

(** ** segments *)
Lemma is_seg_exists (s : sync) c : sync_ok s -> c < length (s_data s) -> exists g, is_seg s c g.
Proof.
  intros Hok Hc. destruct (nth_error (s_data s) c) as [d|] eqn:D; [|apply nth_error_None in D; lia].
  destruct (nth_error (s_cal s) c) as [k|] eqn:Kc.
  - exists (mkSeg (s_rate s) (s_start s) d k). repeat split; assumption.
  - apply nth_error_None in Kc. rewrite (so_cal _ Hok) in Kc. lia.
Qed.

Lemma is_seg_inj (s : sync) c g g' : is_seg s c g -> is_seg s c g' -> g = g'.
Proof.
  intros (H1 & H2 & H3 & H4) (H1' & H2' & H3' & H4').
  destruct g, g'; simpl in *. congruence.
Qed.

Lemma nth_res_ok {B} (l : list B) i x : nth_res l i = Ok x <-> nth_error l i = Some x.
Proof. unfold nth_res. apply of_option_ok. Qed.

Lemma select_seg (s : sync) idx s' j c g : s_select kone s idx = Ok s' ->
  nth_error idx j = Some c -> (is_seg s' j g <-> is_seg s c g).
Proof.
  intros H Hj. apply s_select_inv in H as (_ & Hr & Hst & Hd & Hc).
  destruct (mapM_nth _ _ _ _ _ Hd Hj) as (d & Hd1 & Hd2). apply nth_res_ok in Hd2.
  destruct (mapM_nth _ _ _ _ _ Hc Hj) as (k & Hk1 & Hk2). apply nth_res_ok in Hk2.
  unfold is_seg. rewrite Hd1, Hk1, Hd2, Hk2, Hr, Hst. tauto.
Qed.

(** ** sorting already sorted runs *)
Lemma StronglySorted_of_nth {B} (R : B -> B -> Prop) (l : list B) :
  (forall i j x y, i < j -> nth_error l i = Some x -> nth_error l j = Some y -> R x y) -> StronglySorted R l.
Proof.
  induction l as [|a l IH]; intros H; constructor.
  - apply IH. intros i j x y Hij Hx Hy. apply (H (S i) (S j)); auto; lia.
  - apply Forall_forall. intros y Hy. apply In_nth_error in Hy as [j Hj]. apply (H 0 (S j) a y); auto; lia.
Qed.

Lemma wf_sorted (X : sigset) : wf_set X -> StronglySorted (fun x y => sync_lt y x = false) (ss_signals X).
Proof. intros H. apply StronglySorted_of_nth. intros i j x y Hij Hx Hy. exact (ws_sorted X H i j x y Hij Hx Hy). Qed.

Lemma sort_signals_sorted_id (l : list sync) :
  StronglySorted (fun x y => sync_lt y x = false) l -> sort_signals l = l.
Proof. apply (sort_sorted_id sync_lt). Qed.

Lemma StronglySorted_map_iff {B C} (R : B -> B -> Prop) (R' : C -> C -> Prop) (P : B -> C -> Prop) l l' :
  Forall2 P l l' -> (forall x y x' y', P x x' -> P y y' -> R x y -> R' x' y') ->
  StronglySorted R l -> StronglySorted R' l'.
Proof.
  intros HF HR. induction HF as [|x x' l l' Hx Hl IH]; intros Hs; [constructor|].
  inversion Hs; subst. constructor; [auto|].
  apply Forall_forall. intros y' Hy'. apply In_nth_error in Hy' as [j Hj].
  destruct (Forall2_nth_error_r _ _ _ _ _ Hl Hj) as (y & Hy & HP).
  rewrite Forall_forall in H2. eapply HR; eauto. apply H2. eapply nth_error_In; eauto.
Qed.

(** ** select_channels *)
Lemma sort_nat_sorted l : StronglySorted le (sort_nat l).
Proof.
  assert (H : StronglySorted (fun x y => Nat.ltb y x = false) (sort_nat l)).
  { apply (sort_sorted Nat.ltb (fun _ => True)).
    - intros x y _ _ H. apply Nat.ltb_lt in H. apply Nat.ltb_ge. lia.
    - intros x y z _ _ _ H1 H2. apply Nat.ltb_ge in H1, H2. apply Nat.ltb_ge. lia.
    - apply Forall_forall. auto. }
  induction H as [|x l0 H IH HF]; constructor; [exact IH|].
  apply Forall_forall. intros y Hy. rewrite Forall_forall in HF. apply Nat.ltb_ge. apply HF, Hy.
Qed.

Lemma sorted_le_NoDup_lt l : StronglySorted le l -> NoDup l -> StronglySorted lt l.
Proof.
  intros H; induction H as [|x l H IH HF]; intros Hn; constructor; inversion Hn; subst; [auto|].
  apply Forall_forall. intros y Hy. rewrite Forall_forall in HF. specialize (HF y Hy).
  assert (x <> y) by (intros ->; contradiction). lia.
Qed.

Definition sel_of (idx : list nat) : list nat := sort_nat (dedup Nat.eqb idx).

Lemma sel_of_In idx i : In i (sel_of idx) <-> In i idx.
Proof. unfold sel_of, sort_nat. rewrite sort_In. apply (In_dedup _ nat_eqb_iff). Qed.

Lemma sel_of_NoDup idx : NoDup (sel_of idx).
Proof. eapply Permutation_NoDup; [apply sort_perm|apply (NoDup_dedup _ nat_eqb_iff)]. Qed.

Lemma sel_of_sorted idx : StronglySorted lt (sel_of idx).
Proof. apply sorted_le_NoDup_lt; [apply sort_nat_sorted|apply sel_of_NoDup]. Qed.

Lemma sorted_lt_id l : StronglySorted lt l -> sel_of l = l.
Proof.
  intros H. assert (Hn : NoDup l).
  { induction H as [|x l H IH HF]; constructor; [|exact IH].
    intros Hx. rewrite Forall_forall in HF. specialize (HF x Hx). lia. }
  unfold sel_of. rewrite (dedup_NoDup_id _ nat_eqb_iff l Hn). apply (sort_sorted_id Nat.ltb).
  clear Hn. induction H as [|x l H IH HF]; constructor; [exact IH|].
  apply Forall_forall. intros y Hy. rewrite Forall_forall in HF. specialize (HF y Hy).
  apply Nat.ltb_ge. lia.
Qed.

Lemma index_of_nth l i : In i l -> nth_error l (index_of i l) = Some i.
Proof.
  induction l as [|x l IH]; simpl; [tauto|]. intros H. destruct (Nat.eqb_spec i x) as [->|Hne]; [reflexivity|].
  simpl. apply IH. destruct H; [congruence|assumption].
Qed.

Lemma resolve_chan_In (X : sigset) c l : tags_valid (ss_tags X) -> resolve_chan (ss_tags X) c = Ok l ->
  forall i, In i l -> i < t_n (ss_tags X).
Proof.
  intros Hv. destruct c as [k|z]; simpl.
  - intros H i Hi. apply of_option_ok in H. apply dget_In in H. eapply tv_range; eauto.
  - destruct (idx_mem z (t_indices (ss_tags X))) eqn:E; [|discriminate]. intros H; injection H as <-.
    intros i [<-|[]]. pose proof (valid_in_indices _ _ Hv E). lia.
Qed.

(** what [resolve_chan] accepts and returns, on sets without a tag 'indices' *)
Lemma resolve_chan_spec (X : sigset) c : tags_valid (ss_tags X) -> plain (ss_tags X) ->
  (unknown X c -> resolve_chan (ss_tags X) c = Err ValueError) /\
  (~ unknown X c -> exists l, resolve_chan (ss_tags X) c = Ok l /\ forall i, In i l <-> names_chan X c i).
Proof.
  intros Hv Hp. destruct c as [k|z]; simpl.
  - destruct (dget k (t_dict (ss_tags X))) as [l|] eqn:E; simpl; split.
    + intros H. exfalso. apply (H l). apply dget_In, E.
    + intros _. exists l. split; [reflexivity|]. intros i. split.
      * intros Hi. exists l. split; [apply dget_In, E|exact Hi].
      * intros (l' & Hl' & Hi). apply (reads_dget _ _ _ Hv) in Hl'. congruence.
    + reflexivity.
    + intros H. exfalso. apply H. intros l Hl. apply (reads_dget _ _ _ Hv) in Hl. congruence.
  - rewrite (plain_indices _ Hp). unfold idx_mem.
    destruct (Z.leb_spec 0 z), (Z.ltb_spec z (Z.of_nat (t_n (ss_tags X)))); simpl; split;
      try (intros; reflexivity); try (intros; exfalso; lia).
    intros _. exists [Z.to_nat z]. split; [reflexivity|]. intros i; simpl. split.
    + intros [<-|[]]. lia.
    + intros [-> _]. left. lia.
Qed.

(** the effect of a selection given by channel numbers *)
Lemma select_indices_inv (X : sigset) idx Y : wf_set X -> select_indices kone X idx = Ok Y ->
  Forall2 (fun s s' => s_select kone s (sel_of idx) = Ok s') (ss_signals X) (ss_signals Y) /\
  t_dict (ss_tags Y) =
    map (fun kv => (fst kv, map (fun i => index_of i (sel_of idx)) (snd kv)))
        (filter (fun kv => subsetb Nat.eqb (snd kv) (sel_of idx)) (t_dict (ss_tags X))).
Proof.
  intros HX H. unfold select_indices in H. fold (sel_of idx) in H.
  apply bind_ok in H as ([] & _ & H). apply bind_ok in H as (t & Hb0 & H).
  apply bind_ok in H as (signals & Hb1 & Hk1).
  set (sel := sel_of idx) in *.
  assert (Hnd : NoDup (dkeys (t_dict (ss_tags X)))) by apply (ws_tags X HX).
  assert (Hnd' : NoDup (dkeys (filter (fun kv => subsetb Nat.eqb (snd kv) sel) (t_dict (ss_tags X))))).
  { clear - Hnd. induction (t_dict (ss_tags X)) as [|[k l] d IH]; simpl; [constructor|].
    inversion Hnd; subst. destruct (subsetb Nat.eqb l sel); simpl; [|auto]. constructor; [|auto].
    intros Hin. apply H1. apply in_map_iff in Hin as ([k' l'] & E & Hin). apply filter_In in Hin as [Hin _].
    simpl in E. subst. apply (in_map fst) in Hin; exact Hin. }
  apply mapM_Forall2 in Hb1.
  apply set_of_syncs_inv in Hk1 as (_ & _ & Hs & _ & Ht).
  rewrite Hs, sort_signals_sorted_id.
  - split; [exact Hb1|].
    apply set_tags_obj in Ht; [|eapply tags_new_valid; eauto]. rewrite Ht.
    apply tags_new_dict in Hb0.
    + rewrite Hb0. unfold store. rewrite map_map. apply map_ext. intros [k l]. simpl. f_equal.
      rewrite map_map. apply map_ext. intros; lia.
    + unfold dkeys in Hnd' |- *. rewrite map_map. simpl. exact Hnd'.
  - eapply StronglySorted_map_iff; [exact Hb1| |apply wf_sorted; exact HX].
    intros x y x' y' Hx Hy. apply s_select_inv in Hx as (_ & _ & Hx & _), Hy as (_ & _ & Hy & _).
    unfold sync_lt. rewrite Hx, Hy. auto.
Qed.

Lemma mapM_concat_In {B C} (f : B -> res (list C)) l ll x : mapM f l = Ok ll ->
  (In x (concat ll) <-> exists b lb, In b l /\ f b = Ok lb /\ In x lb).
Proof.
  intros H. rewrite in_concat. split.
  - intros (lb & Hlb & Hx). destruct (mapM_In_r _ _ _ _ H Hlb) as (b & Hb & Hf). eauto.
  - intros (b & lb & Hb & Hf & Hx). destruct (mapM_In _ _ _ _ H Hb) as (lb' & Hlb' & Hf').
    rewrite Hf in Hf'. injection Hf' as <-. eauto.
Qed.

Lemma nb_channels_wf (X : sigset) : wf_set X -> dget "indices" (t_dict (ss_tags X)) = None ->
  nb_channels X = t_n (ss_tags X).
Proof.
  intros HX Hi. unfold nb_channels, nb_channels_of, t_indices. destruct (ss_signals X) as [|s l] eqn:E.
  - rewrite Hi. reflexivity.
  - apply (ws_chan X HX). rewrite E; left; reflexivity.
Qed.

(** resolution of a whole selector *)
Lemma select_channels_resolve (X : sigset) c : wf_set X -> plain (ss_tags X) -> sel_known X c ->
  exists idx, select_channels kone X c = select_indices kone X idx /\
    (forall i, In i idx <-> chosen X c i) /\ (forall i, In i idx -> i < t_n (ss_tags X)).
Proof.
  intros HX Hp Hk. pose proof (ws_tags X HX) as Hv. unfold select_channels.
  assert (Hseq : forall ids, (forall c, In c ids -> ~ unknown X c) ->
     exists ll, mapM (resolve_chan (ss_tags X)) ids = Ok ll /\
       (forall i, In i (concat ll) <-> exists c, In c ids /\ names_chan X c i)).
  { intros ids Hids. destruct (mapM_ok_exists (resolve_chan (ss_tags X)) ids) as [ll Hll].
    - intros x Hx. destruct (resolve_chan_spec X x Hv Hp) as [_ H]. destruct (H (Hids x Hx)) as (l & Hl & _). eauto.
    - exists ll. split; [exact Hll|]. intros i. rewrite (mapM_concat_In _ _ _ _ Hll). split.
      + intros (b & lb & Hb & Hf & Hi). exists b. split; [exact Hb|].
        destruct (resolve_chan_spec X b Hv Hp) as [_ H]. destruct (H (Hids b Hb)) as (l & Hl & Hn).
        rewrite Hf in Hl. injection Hl as <-. apply Hn, Hi.
      + intros (b & Hb & Hn). destruct (resolve_chan_spec X b Hv Hp) as [_ H].
        destruct (H (Hids b Hb)) as (l & Hl & Hi). exists b, l. split; [exact Hb|]. split; [exact Hl|]. apply Hi, Hn. }
  assert (Hint : forall l, (forall i, In i l -> i < t_n (ss_tags X)) ->
     exists ll, mapM (resolve_chan (ss_tags X)) (map (fun i => CInt (Z.of_nat i)) l) = Ok ll /\
       (forall i, In i (concat ll) <-> In i l)).
  { intros l Hl. destruct (Hseq (map (fun i => CInt (Z.of_nat i)) l)) as (ll & Hll & Hi).
    - intros c' Hc'. apply in_map_iff in Hc' as (i & <- & Hi). simpl. specialize (Hl i Hi). lia.
    - exists ll. split; [exact Hll|]. intros i. rewrite Hi. split.
      + intros (c' & Hc' & Hn). apply in_map_iff in Hc' as (j & <- & Hj). simpl in Hn.
        destruct Hn as [Hn _]. apply Nat2Z.inj in Hn. subst; exact Hj.
      + intros H. exists (CInt (Z.of_nat i)). split; [apply in_map_iff; eauto|]. simpl. split; [reflexivity|auto]. }
  destruct c as [c|l|sl]; simpl in Hk.
  - destruct c as [k|z].
    + simpl. destruct (dget k (t_dict (ss_tags X))) as [l|] eqn:E.
      * simpl. assert (Hl : forall i, In i l -> i < t_n (ss_tags X)).
        { intros i Hi. apply dget_In in E. eapply tv_range; eauto. }
        destruct (Hint l Hl) as (ll & Hll & Hi). rewrite Hll. simpl. exists (concat ll).
        split; [reflexivity|]. split.
        -- intros i. rewrite Hi. split.
           ++ intros H. exists l. split; [apply dget_In, E|exact H].
           ++ intros (l' & Hl' & H). apply (reads_dget _ _ _ Hv) in Hl'. congruence.
        -- intros i H. apply Hl, Hi, H.
      * exfalso. apply Hk. intros l Hl. apply (reads_dget _ _ _ Hv) in Hl. congruence.
    + simpl bind. destruct (Hseq [CInt z]) as (ll & Hll & Hi); [intros c' [<-|[]]; exact Hk|].
      simpl mapM in *. rewrite Hll. simpl. exists (concat ll). split; [reflexivity|].
      assert (Hc : forall i, In i (concat ll) <-> (z = Z.of_nat i /\ i < t_n (ss_tags X))).
      { intros i. rewrite Hi. split; [intros (c' & [<-|[]] & Hn); exact Hn|intros Hn; exists (CInt z); split; [left; reflexivity|exact Hn]]. }
      split; [exact Hc|]. intros i H. apply Hc in H. lia.
  - simpl. destruct (Hseq l Hk) as (ll & Hll & Hi). rewrite Hll. simpl. exists (concat ll).
    split; [reflexivity|]. split; [exact Hi|].
    intros i H. apply (mapM_concat_In _ _ _ _ Hll) in H as (b & lb & _ & Hf & H).
    eapply resolve_chan_In; eauto.
  - rewrite nb_channels_wf by (auto; apply plain_no; simpl; auto 10).
    destruct (slice_range sl (t_n (ss_tags X))) as [r|e] eqn:E.
    + simpl. pose proof (slice_range_nat _ _ _ E) as Hr.
      rewrite Hr, map_map.
      destruct (Hint (map Z.to_nat r)) as (ll & Hll & Hi).
      * intros i H. apply in_map_iff in H as (z & <- & Hz). pose proof (slice_range_bounds _ _ _ E z Hz). lia.
      * rewrite map_map in Hll. rewrite map_map. rewrite Hll. simpl. exists (concat ll). split; [reflexivity|].
        assert (Hc : forall i, In i (concat ll) <-> In (Z.of_nat i) r).
        { intros i. rewrite Hi. split.
          - intros H. apply in_map_iff in H as (z & <- & Hz).
            pose proof (slice_range_bounds _ _ _ E z Hz). rewrite Z2Nat.id by lia. exact Hz.
          - intros H. apply in_map_iff. exists (Z.of_nat i). split; [lia|exact H]. }
        split.
        -- intros i. rewrite Hc. split; [intros H; exists r; auto|intros (l & Hl & H); congruence].
        -- intros i H. apply Hc in H. pose proof (slice_range_bounds _ _ _ E _ H). lia.
    + exfalso. unfold slice_range, slice_indices in E. apply Hk.
      destruct (sl_step sl) as [s|]; simpl in E; [|discriminate].
      destruct (Z.eqb_spec s 0); [congruence|discriminate].
Qed.

End Track.
