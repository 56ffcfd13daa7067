(** Well-formedness of signal sets, for any arithmetic with order laws. *)
From Verif Require Import Base BaseLemmas Arith OrdLaws TagsModel SpecTags TagsProofs SyncModel SetModel SpecSet.

Section SetProofs.
Context {A : Arith} {V K : Type} (kone : K).
Notation sync := (sync A V K).
Notation sigset := (@sigset A V K).

Lemma sync_new_inv data rate start cal (s : sync) :
  sync_new kone data rate start cal = Ok s ->
  s_data s = data /\ s_rate s = rate /\ s_start s = start /\ sync_ok s /\
  s_cal s = (match cal with Some (c :: cs) => c :: cs | _ => repeat kone (length data) end).
Proof.
  unfold sync_new. intros H. binvs. apply Nat.eqb_eq in Hb.
  destruct (dedup Nat.eqb (map (length (A:=V)) data)) as [|size [|? ?]] eqn:E; try discriminate.
  injection Hk as <-. simpl. split; [reflexivity|]. split; [reflexivity|]. split; [reflexivity|]. split; [|reflexivity].
  apply (dedup_all_eq Nat.eqb nat_eqb_iff) in E as [Hne Hall].
  split; simpl.
  - intros ->; apply Hne; reflexivity.
  - symmetry; exact Hb.
  - intros c Hc. apply Hall. apply in_map, Hc.
Qed.

Lemma sync_new_size data rate start cal (s : sync) c :
  sync_new kone data rate start cal = Ok s -> In c data -> s_size s = length c.
Proof.
  intros H Hc. apply sync_new_inv in H as (<- & _ & _ & Hok & _). symmetry. apply (so_size _ Hok). exact Hc.
Qed.

Lemma sync_new_exists data rate start (cal : list K) :
  data <> [] -> length cal = length data -> (forall c d, In c data -> In d data -> length c = length d) ->
  exists s : sync, sync_new kone data rate start (Some cal) = Ok s.
Proof.
  intros Hne Hl Hall. unfold sync_new.
  destruct cal as [|k cal]; [destruct data; [congruence|discriminate]|].
  rewrite <- Hl, Nat.eqb_refl. simpl check. simpl bind.
  destruct data as [|c data]; [congruence|].
  assert (E : dedup Nat.eqb (map (length (A:=V)) (c :: data)) = [length c]).
  { apply (dedup_all_eq Nat.eqb nat_eqb_iff). split; [discriminate|].
    intros y Hy. apply in_map_iff in Hy as (d & <- & Hd). apply Hall; [exact Hd|left; reflexivity]. }
  rewrite E. eauto.
Qed.

Lemma sync_size_unique (s s' : sync) : sync_ok s -> sync_ok s' -> s_data s = s_data s' -> s_size s = s_size s'.
Proof.
  intros H H' E. destruct (s_data s) as [|c l] eqn:D; [destruct H; congruence|].
  rewrite <- (so_size _ H c), <- (so_size _ H' c); [reflexivity|rewrite <- E; left; reflexivity|rewrite D; left; reflexivity].
Qed.

(** rebuilding a signal from its own parts gives it back *)
Lemma sync_new_self (s : sync) : sync_ok s ->
  sync_new kone (s_data s) (s_rate s) (s_start s) (Some (s_cal s)) = Ok s.
Proof.
  intros H. destruct (sync_new_exists (s_data s) (s_rate s) (s_start s) (s_cal s)) as [s' Hs'].
  - apply H.
  - apply H.
  - intros c d Hc Hd. rewrite (so_size _ H c Hc), (so_size _ H d Hd). reflexivity.
  - rewrite Hs'. f_equal. apply sync_new_inv in Hs' as (D & R & S & Ho & C).
    pose proof (sync_size_unique s' s Ho H D) as Z.
    destruct s as [d c r st sz], s' as [d' c' r' st' sz']; simpl in *. subst.
    f_equal. destruct c as [|k c]; [|reflexivity].
    destruct H as [Hne Hl _]; simpl in *. destruct d; [congruence|discriminate].
Qed.

Lemma s_select_inv (s : sync) idx s' : s_select kone s idx = Ok s' ->
  sync_ok s' /\ s_rate s' = s_rate s /\ s_start s' = s_start s /\
  mapM (nth_res (s_data s)) idx = Ok (s_data s') /\
  mapM (nth_res (s_cal s)) idx = Ok (s_cal s').
Proof.
  unfold s_select. intros H. binvs. apply sync_new_inv in Hk0 as (D & R & S & Ho & C).
  split; [exact Ho|]. split; [exact R|]. split; [exact S|]. split; [congruence|].
  rewrite C. rewrite Hb0. f_equal. destruct v0; [|reflexivity].
  apply mapM_length in Hb0. apply mapM_length in Hb. rewrite <- Hb in Hb0.
  destruct v; [|discriminate]. reflexivity.
Qed.

Lemma extract_i_ok (s : sync) a b st l s' : extract_i kone s a b st l = Ok s' -> sync_ok s'.
Proof. unfold extract_i. intros H. binvs. apply sync_new_inv in Hk0. tauto. Qed.

Lemma sync_extract_t_ok (s : sync) a b st s' : sync_extract_t kone s a b st = Ok s' -> sync_ok s'.
Proof.
  unfold sync_extract_t. intros H. apply bind_ok in H as (v & Hv & H).
  apply bind_ok in H as ([a' b'] & Hab & H). binvs. eapply extract_i_ok; eauto.
Qed.

(** ** stops *)
Lemma s_stop_last (s : sync) b : s_stop s = Ok b <->
  neqb A (s_rate s) (nzero A) = false /\ b = last_time s.
Proof.
  unfold s_stop, index_to_time, last_time, sample_time.
  set (i := (if (Z.of_nat (s_size s) - 1 <? 0)%Z then _ else _)).
  assert (Hi : i = (Z.of_nat (s_size s) - 1)%Z).
  { unfold i. destruct (Z.ltb_spec (Z.of_nat (s_size s) - 1) 0); lia. }
  rewrite Hi. destruct (neqb A (s_rate s) (nzero A)); split.
  - discriminate.
  - intros [? ?]; discriminate.
  - intros H; injection H as <-; auto.
  - intros [_ ->]; reflexivity.
Qed.

Lemma s_interval_inv (s : sync) iv : s_interval s = Ok iv <->
  neqb A (s_rate s) (nzero A) = false /\ iv = (s_start s, last_time s).
Proof.
  unfold s_interval. rewrite bind_ok. split.
  - intros (b & Hb & E). apply s_stop_last in Hb as [H ->]. split; [exact H|congruence].
  - intros [H ->]. exists (last_time s). split; [apply s_stop_last; auto|reflexivity].
Qed.

Lemma mapM_interval (l : list sync) ivs : mapM s_interval l = Ok ivs <->
  (forall s, In s l -> neqb A (s_rate s) (nzero A) = false) /\
  ivs = map (fun s => (s_start s, last_time s)) l.
Proof.
  split.
  - intros H. split.
    + intros s Hs. destruct (mapM_In _ _ _ _ H Hs) as (iv & _ & Hi). apply s_interval_inv in Hi; tauto.
    + apply mapM_Forall2 in H. induction H as [|s iv l ivs Hs Hl IH]; [reflexivity|].
      simpl. apply s_interval_inv in Hs as [_ ->]. f_equal. exact IH.
  - intros [H ->]. apply mapM_ok_all. intros s Hs. apply s_interval_inv; auto.
Qed.

Lemma no_overlap_nth (l : list (num A * num A)) : no_overlap l = true <->
  forall i x y, nth_error l i = Some x -> nth_error l (S i) = Some y -> nleb A (snd x) (fst y) = true.
Proof.
  induction l as [|[a b] l IH]; simpl.
  - split; [|reflexivity]. intros _ i x y H. destruct i; discriminate.
  - destruct l as [|[c d] l].
    + split; [|reflexivity]. intros _ i x y _ H. destruct i as [|[|i]]; discriminate.
    + rewrite andb_true_iff, IH. split.
      * intros [H1 H2] i x y Hx Hy. destruct i as [|i]; simpl in *.
        -- injection Hx as <-; injection Hy as <-; exact H1.
        -- eapply H2; eauto.
      * intros H. split; [apply (H 0 (a, b) (c, d)); reflexivity|]. intros i x y Hx Hy. apply (H (S i)); assumption.
Qed.

(** ** the tags setter *)
Lemma set_tags_inv (signals : list sync) old tg t : set_tags signals old tg = Ok t ->
  tags_valid t /\
  (nb_channels_of signals old <> 0 -> t_n t = nb_channels_of signals old).
Proof.
  unfold set_tags. intros H. binvs. split; [eapply tags_new_valid; eauto|].
  intros Hn. apply tags_new_n in Hk0. destruct (Nat.eqb_spec (nb_channels_of signals old) 0); [contradiction|].
  rewrite Hk0. apply Nat2Z.id.
Qed.

Definition sync_lt (x y : sync) : bool := nltb A (s_start x) (s_start y).

Lemma set_of_syncs_inv tg (signals : list sync) X : set_of_syncs tg signals = Ok X ->
  (forall s s', In s signals -> In s' signals -> length (s_data s) = length (s_data s')) /\
  (forall s, In s signals -> neqb A (s_rate s) (nzero A) = false) /\
  ss_signals X = sort_signals signals /\
  no_overlap (map (fun s => (s_start s, last_time s)) (sort_signals signals)) = true /\
  set_tags (sort_signals signals) None tg = Ok (ss_tags X).
Proof.
  unfold set_of_syncs. intros H. binvs. subst. simpl.
  apply mapM_interval in Hb0 as [Hr ->].
  split; [|split; [exact Hr|split; [reflexivity|split; [|exact Hb2]]]].
  - intros s s' Hs Hs'. apply Nat.leb_le in Hb.
    assert (In (length (s_data s)) (dedup Nat.eqb (map (fun s => length (s_data s)) signals))) as I1
      by (apply (In_dedup _ nat_eqb_iff), in_map_iff; eauto).
    assert (In (length (s_data s')) (dedup Nat.eqb (map (fun s => length (s_data s)) signals))) as I2
      by (apply (In_dedup _ nat_eqb_iff), in_map_iff; eauto).
    destruct (dedup _ _) as [|a [|b l]]; simpl in *; [destruct I1| |lia].
    destruct I1 as [<-|[]], I2 as [<-|[]]; reflexivity.
  - unfold sort_intervals in Hb1. rewrite (sort_map sync_lt) in Hb1 by reflexivity. exact Hb1.
Qed.

Lemma set_of_syncs_ok tg (signals : list sync) :
  (forall s s', In s signals -> In s' signals -> length (s_data s) = length (s_data s')) ->
  (forall s, In s signals -> neqb A (s_rate s) (nzero A) = false) ->
  no_overlap (map (fun s => (s_start s, last_time s)) (sort_signals signals)) = true ->
  set_of_syncs tg signals =
    (t <- set_tags (sort_signals signals) None tg ;; Ok (mkSet (sort_signals signals) t)).
Proof.
  intros Hd Hr Ho. unfold set_of_syncs.
  assert (E1 : (length (dedup Nat.eqb (map (fun s => length (s_data s)) signals)) <=? 1) = true).
  { apply Nat.leb_le. destruct signals as [|s l]; [simpl; lia|].
    assert (E : dedup Nat.eqb (map (fun s => length (s_data s)) (s :: l)) = [length (s_data s)]).
    { apply (dedup_all_eq _ nat_eqb_iff). split; [discriminate|]. intros y Hy.
      apply in_map_iff in Hy as (s' & <- & Hs'). apply Hd; [exact Hs'|left; reflexivity]. }
    rewrite E; simpl; lia. }
  rewrite E1. simpl.
  rewrite (proj2 (mapM_interval signals _) (conj Hr eq_refl)). simpl.
  unfold sort_intervals. rewrite (sort_map sync_lt) by reflexivity.
  change (stable_sort sync_lt signals) with (sort_signals signals). rewrite Ho. simpl. reflexivity.
Qed.

Lemma sort_signals_In (l : list sync) s : In s (sort_signals l) <-> In s l.
Proof. apply sort_In. Qed.

(** ** sortedness *)
Section Order.
Context (L : OrdLaws A).

Lemma starts_ok (l : list sync) :
  no_overlap (map (fun s => (s_start s, last_time s)) l) = true -> 2 <= length l ->
  forall s, In s l -> ok L (s_start s).
Proof.
  intros Ho Hlen s Hs. apply In_nth_error in Hs as [i Hi].
  rewrite no_overlap_nth in Ho.
  assert (Hlt : i < length l) by (apply nth_error_Some; congruence).
  destruct i as [|i].
  - destruct (nth_error l 1) as [s'|] eqn:E; [|apply nth_error_None in E; lia].
    specialize (Ho 0 (s_start s, last_time s) (s_start s', last_time s')).
    rewrite !nth_error_map, Hi, E in Ho. specialize (Ho eq_refl eq_refl). simpl in Ho.
    apply (leb_ok A L) in Ho as [Ho _]. unfold last_time, sample_time in Ho. exact (add_ok A L _ _ Ho).
  - destruct (nth_error l i) as [s'|] eqn:E; [|apply nth_error_None in E; lia].
    specialize (Ho i (s_start s', last_time s') (s_start s, last_time s)).
    rewrite !nth_error_map, Hi, E in Ho. specialize (Ho eq_refl eq_refl). simpl in Ho.
    apply (leb_ok A L) in Ho as [_ Ho]. exact Ho.
Qed.

Lemma StronglySorted_nth {B} (R : B -> B -> Prop) (l : list B) :
  StronglySorted R l -> forall i j x y, i < j -> nth_error l i = Some x -> nth_error l j = Some y -> R x y.
Proof.
  intros H; induction H as [|a l Hl IH Ha]; intros i j x y Hij Hx Hy; [destruct i; discriminate|].
  destruct i as [|i], j as [|j]; simpl in *; try lia.
  - injection Hx as <-. rewrite Forall_forall in Ha. apply Ha. eapply nth_error_In; eauto.
  - apply (IH i j); auto; lia.
Qed.

Lemma sort_signals_sorted (l : list sync) :
  (forall s, In s l -> ok L (s_start s)) ->
  StronglySorted (fun x y => sync_lt y x = false) (sort_signals l).
Proof.
  intros H. apply (sort_sorted sync_lt (fun s => ok L (s_start s))).
  - intros x y Hx Hy. apply (ltb_asym L); assumption.
  - intros x y z Hx Hy Hz. apply (nltb_le_trans L); assumption.
  - apply Forall_forall. exact H.
Qed.

Lemma set_of_syncs_wf tg (signals : list sync) X :
  (forall s, In s signals -> sync_ok s) -> set_of_syncs tg signals = Ok X -> wf_set X.
Proof.
  intros Hok H. apply set_of_syncs_inv in H as (Hd & Hr & Hs & Ho & Ht).
  apply set_tags_inv in Ht as [Htv Htn].
  split; rewrite ?Hs.
  - intros s Hin. apply Hok, sort_signals_In, Hin.
  - intros s Hin. rewrite Htn; unfold nb_channels_of.
    + destruct (sort_signals signals) as [|s0 l] eqn:E; [destruct Hin|].
      apply Hd; apply sort_signals_In; rewrite E; [exact Hin|left; reflexivity].
    + destruct (sort_signals signals) as [|s0 l] eqn:E; [destruct Hin|].
      assert (Ho0 : sync_ok s0) by (apply Hok, sort_signals_In; rewrite E; left; reflexivity).
      destruct (s_data s0) eqn:D; [destruct Ho0; congruence|discriminate].
  - intros s Hin. apply Hr, sort_signals_In, Hin.
  - intros i j s s' Hij Hi Hj.
    assert (Hlen : 2 <= length (sort_signals signals)).
    { assert (j < length (sort_signals signals)) by (apply nth_error_Some; congruence). lia. }
    refine (StronglySorted_nth _ _ (sort_signals_sorted signals _) i j s s' Hij Hi Hj).
    intros x Hx. apply sort_signals_In in Hx. exact (starts_ok _ Ho Hlen x Hx).
  - intros i s s' Hi Hj. rewrite no_overlap_nth in Ho.
    apply (Ho i (s_start s, last_time s) (s_start s', last_time s')); rewrite nth_error_map, ?Hi, ?Hj; reflexivity.
  - exact Htv.
Qed.

Lemma reorder_wf (X : sigset) tg Y : wf_set X -> reorder kone X tg = Ok Y -> wf_set Y.
Proof.
  unfold reorder. intros HX H.
  destruct (match tg with TObj t => tags_eqb (ss_tags X) t | TDict _ => false end).
  - injection H as <-. exact HX.
  - binvs. eapply set_of_syncs_wf; [|eassumption].
    intros s Hs. match goal with Hm : mapM _ (ss_signals X) = Ok _ |- _ =>
      destruct (mapM_In_r _ _ _ _ Hm Hs) as (s0 & _ & H0) end.
    binvs. match goal with Hn : sync_new _ _ _ _ _ = Ok _ |- _ => apply sync_new_inv in Hn; tauto end.
Qed.

Lemma set_new_wf tg args X :
  (forall s : sync, In (ASync s) args -> sync_ok s) -> (forall Y : sigset, In (ASet Y) args -> wf_set Y) ->
  set_new kone tg args = Ok X -> wf_set X.
Proof.
  unfold set_new. intros Hs HS H. binvs. eapply set_of_syncs_wf; [|eassumption].
  intros s Hin. apply in_concat in Hin as (l & Hl & Hin).
  destruct (mapM_In_r _ _ _ _ Hb Hl) as ([s0|Y] & Ha & E).
  - injection E as <-. destruct Hin as [<-|[]]. auto.
  - binvs. subst. apply (ws_sync v0); [eapply reorder_wf; eauto|assumption].
Qed.

Lemma set_new_syncs_wf tg (l : list sync) X : (forall s, In s l -> sync_ok s) -> set_new kone tg (map ASync l) = Ok X -> wf_set X.
Proof.
  intros Hl. apply set_new_wf.
  - intros s H. apply in_map_iff in H as (s' & E & H). injection E as <-. auto.
  - intros Y H. apply in_map_iff in H as (s' & E & H). discriminate.
Qed.

Lemma join_wf (X : sigset) args Y : wf_set X ->
  (forall s : sync, In (ASync s) args -> sync_ok s) -> (forall Z : sigset, In (ASet Z) args -> wf_set Z) ->
  join kone X args = Ok Y -> wf_set Y.
Proof.
  intros HX Hs HS. apply set_new_wf.
  - intros s [E|H]; [discriminate|auto].
  - intros Z [E|H]; [injection E as <-; exact HX|auto].
Qed.

Lemma select_runs_wf (X : sigset) r Y : wf_set X -> select_runs kone X r = Ok Y -> wf_set Y.
Proof.
  unfold select_runs. intros HX H. binvs. eapply set_new_syncs_wf; [|eassumption].
  intros s Hs. destruct (mapM_In_r _ _ _ _ Hb0 Hs) as (i & _ & Hi).
  unfold nth_res in Hi. destruct (nth_error (ss_signals X) i) as [s'|] eqn:E; [|discriminate].
  injection Hi as <-. apply (ws_sync X HX). eapply nth_error_In; eauto.
Qed.

Lemma select_channels_wf (X : sigset) c Y : wf_set X -> select_channels kone X c = Ok Y -> wf_set Y.
Proof.
  unfold select_channels, select_indices. intros HX H. binvs.
  eapply set_of_syncs_wf; [|eassumption].
  intros s Hs. destruct (mapM_In_r _ _ _ _ Hb3 Hs) as (s0 & _ & H0). apply s_select_inv in H0. tauto.
Qed.

Lemma extract_in_wf (X : sigset) a b Y : extract_in kone X a b = Ok Y -> wf_set Y.
Proof.
  unfold extract_in. intros H. binvs. eapply set_new_syncs_wf; [|eassumption].
  intros s Hs. apply filter_In in Hs as [Hs _].
  destruct (mapM_In_r _ _ _ _ Hb Hs) as (s0 & _ & H0). eapply sync_extract_t_ok; eauto.
Qed.

Lemma extract_t_wf (X : sigset) a b e Y : extract_t kone X a b e = Ok Y -> wf_set Y.
Proof.
  unfold extract_t. destruct e; [|apply extract_in_wf].
  intros H. binvs. eapply join_wf; [| | |eassumption].
  - eapply extract_in_wf; eauto.
  - intros s [E|[]]; discriminate.
  - intros Z [E|[]]; injection E as <-. eapply extract_in_wf; eauto.
Qed.

Lemma somes_In {B} (l : list (option B)) x : In x (somes l) <-> In (Some x) l.
Proof.
  induction l as [|[y|] l IH]; simpl; [tauto| |].
  - rewrite IH. split; [intros [->|]|intros [E|]]; auto. injection E as ->; auto.
  - rewrite IH. split; [auto|intros [E|]]; [discriminate|auto].
Qed.

Lemma merge_all_wf seqs (Y : sigset) : merge_all kone seqs = Ok Y -> wf_set Y.
Proof.
  unfold merge_all. intros H. binvs. eapply set_new_syncs_wf; [|eassumption].
  intros s Hs. apply somes_In in Hs.
  match goal with Hm : mapM (merge_one _ _) _ = Ok _ |- _ =>
      destruct (mapM_In_r _ _ _ _ Hm Hs) as ([a b] & _ & H0) end.
  unfold merge_one in H0. binvs. destruct (dedup (neqb A) _) as [|r [|? ?]]; try discriminate.
  binvs. match goal with Hn : sync_new _ _ _ _ _ = Ok _ |- _ => apply sync_new_inv in Hn end. subst. tauto.
Qed.

Lemma foldM_inv {S B} (P : S -> Prop) (f : S -> B -> res S) l : forall s s',
  P s -> (forall s b s', In b l -> P s -> f s b = Ok s' -> P s') -> foldM f s l = Ok s' -> P s'.
Proof.
  induction l as [|b l IH]; simpl; intros s s' Hs Hf H; [injection H as <-; exact Hs|].
  binvs. apply (IH v s'); [eapply Hf; eauto| |assumption].
  intros s0 b0 s1 Hb0. apply Hf. right; exact Hb0.
Qed.

Lemma merge_consecutive_wf (X : sigset) Y : wf_set X -> merge_consecutive_runs kone X = Ok Y -> wf_set Y.
Proof.
  unfold merge_consecutive_runs. intros HX H.
  apply bind_ok in H as (r0 & H0 & H). apply bind_ok in H as (ivs & Hivs & H).
  apply bind_ok in H as ([r1 added] & Hf & H). apply bind_ok in H as (rest & Hrest & H).
  assert (W0 : wf_set r0) by (eapply (set_new_wf _ []); eauto; intros ? []).
  assert (W1 : wf_set (fst (r1, added))).
  { refine (foldM_inv (fun st => wf_set (fst st)) _ _ _ _ _ _ Hf); [exact W0|].
    intros st rate st' _ Hst Hf1.
    refine (foldM_inv (fun st => wf_set (fst st)) _ _ _ _ _ _ Hf1); [exact Hst|].
    intros [r ad] g st2 _ Hr Hg. simpl in *. binvs. subst. simpl.
    eapply join_wf; [exact Hr| | |eassumption].
    - intros s [E|[]]. injection E as <-. unfold merge_group in Hb. apply bind_ok in Hb as (grp & _ & Hg).
      destruct (ss_signals grp) as [|s0 l]; [discriminate|]. apply sync_new_inv in Hg. tauto.
    - intros Z [E|[]]; discriminate. }
  eapply join_wf; [exact W1| | |eassumption].
  - intros s [E|[]]; discriminate.
  - intros Z [E|[]]. injection E as <-. exact (select_runs_wf _ _ _ HX Hrest).
Qed.

Lemma set_tags_wf (X : sigset) t : wf_set X -> tags_valid t ->
  (ss_signals X <> [] -> t_n t = t_n (ss_tags X)) -> wf_set (mkSet (ss_signals X) t).
Proof.
  intros [H1 H2 H3 H4 H5 H6] Ht Hn. split; simpl; auto.
  intros s Hs. rewrite Hn; [auto|]. intros E; rewrite E in Hs; destruct Hs.
Qed.

Lemma assign_wf (X : sigset) tg Y : wf_set X -> assign_tags X tg = Ok Y -> wf_set Y.
Proof.
  unfold assign_tags. intros HX H. binvs. subst. apply set_tags_inv in Hb as [Hv Hn].
  apply set_tags_wf; [exact HX|exact Hv|].
  intros Hne. unfold nb_channels_of in Hn. destruct (ss_signals X) as [|s l] eqn:E; [congruence|].
  assert (Hin : In s (ss_signals X)) by (rewrite E; left; reflexivity).
  rewrite Hn; [apply (ws_chan X HX); exact Hin|].
  pose proof (so_chan _ (ws_sync X HX s Hin)). destruct (s_data s); [congruence|discriminate].
Qed.

Lemma mutate_wf (X : sigset) ops : wf_set X -> wf_set (mkSet (ss_signals X) (t_run (ss_tags X) ops)).
Proof.
  intros HX. destruct (valid_run ops (ss_tags X) (ws_tags X HX)) as [Hv Hn].
  apply set_tags_wf; auto.
Qed.

Scheme reach_sync_ind' := Induction for reach_sync Sort Prop
with reach_tags_ind' := Induction for reach_tags Sort Prop
with reach_tagarg_ind' := Induction for reach_tagarg Sort Prop
with reach_arg_ind' := Induction for reach_arg Sort Prop
with reach_ind' := Induction for reach Sort Prop.
Combined Scheme reach_mutind from reach_sync_ind', reach_tags_ind', reach_tagarg_ind', reach_arg_ind', reach_ind'.

Definition arg_ok (a : @sigarg A V K) : Prop :=
  match a with ASync s => sync_ok s | ASet X => wf_set X end.
Definition tagarg_ok (a : tagarg) : Prop :=
  match a with TObj t => tags_valid t | TDict _ => True end.

Lemma reach_all :
  (forall s : sync, reach_sync kone s -> sync_ok s) /\
  (forall t, @reach_tags A V K kone t -> tags_valid t) /\
  (forall a, @reach_tagarg A V K kone a -> tagarg_ok a) /\
  (forall a, reach_arg kone a -> arg_ok a) /\
  (forall X : sigset, reach kone X -> wf_set X).
Proof.
  apply (@reach_mutind A V K kone (fun s _ => sync_ok s) (fun t _ => tags_valid t)
    (fun a _ => tagarg_ok a) (fun a _ => arg_ok a) (fun X _ => wf_set X)).
  - intros data rate start cal s e. apply sync_new_inv in e. tauto.
  - intros s idx s' r IH e. apply s_select_inv in e. tauto.
  - intros s a b strict last s' r IH e. eapply extract_i_ok; eauto.
  - intros s a b strict s' r IH e. eapply sync_extract_t_ok; eauto.
  - intros X s r IH i. apply (ws_sync X IH s i).
  - intros n d t e. eapply tags_new_valid; eauto.
  - intros t ops r IH. apply valid_run; exact IH.
  - intros X r IH. apply (ws_tags X IH).
  - intros t r IH. exact IH.
  - intros d. exact I.
  - intros s r IH. exact IH.
  - intros X r IH. exact IH.
  - intros tg args X r IH r0 IH0 e. eapply set_new_wf; [| |exact e].
    + intros s Hs. exact (IH0 _ Hs).
    + intros Y HY. exact (IH0 _ HY).
  - intros X args Y r IH r0 IH0 e. eapply join_wf; [exact IH| | |exact e].
    + intros s Hs. exact (IH0 _ Hs).
    + intros Z HZ. exact (IH0 _ HZ).
  - intros X others Y r IH r0 IH0 e. eapply merge_all_wf; exact e.
  - intros X c Y r IH e. eapply select_channels_wf; eauto.
  - intros X r Y r0 IH e. eapply select_runs_wf; eauto.
  - intros X i Y r IH e. destruct i as [|c|c rs|]; simpl in e.
    + injection e as <-; exact IH.
    + eapply select_channels_wf; eauto.
    + binvs. eapply select_runs_wf; [|eassumption]. eapply select_channels_wf; eauto.
    + discriminate.
  - intros X a b excl Y r IH e. eapply extract_t_wf; eauto.
  - intros X Y r IH e. eapply merge_consecutive_wf; eauto.
  - intros X tg Y r IH r0 IH0 e. eapply assign_wf; eauto.
  - intros X ops r IH. apply mutate_wf; exact IH.
Qed.

Lemma reach_wf (X : sigset) : reach kone X -> wf_set X.
Proof. apply reach_all. Qed.
End Order.
End SetProofs.
