(** Order of runs: constructor, selection of runs. *)
From Verif Require Import Base BaseLemmas SliceLemmas Arith OrdLaws TagsModel SpecTags TagsProofs
  SyncModel SetModel SpecSet SetProofs SpecSelect TrackProofs SelectProofs.

Lemma FOP_perm {B} (R : B -> B -> Prop) l l' : (forall x y, R x y -> R y x) ->
  Permutation l l' -> ForallOrdPairs R l -> ForallOrdPairs R l'.
Proof.
  intros Hs HP. induction HP as [|x l l' HP IH|x y l|l l' l'' H1 IH1 H2 IH2]; intros H.
  - exact H.
  - inversion H as [|? ? Hx Hl]; subst. constructor; [|auto].
    rewrite Forall_forall in *. intros z Hz. apply Hx. eapply Permutation_in; [symmetry; exact HP|exact Hz].
  - inversion H as [|? ? Hx Hl]; subst. inversion Hl as [|? ? Hy Hl']; subst. inversion Hx; subst.
    constructor; [constructor; auto|]. constructor; assumption.
  - auto.
Qed.

Lemma FOP_nth {B} (R : B -> B -> Prop) l i j x y : ForallOrdPairs R l -> i < j ->
  nth_error l i = Some x -> nth_error l j = Some y -> R x y.
Proof.
  intros H. revert i j. induction H as [|a l Ha Hl IH]; intros i j Hij Hi Hj; [destruct i; discriminate|].
  destruct j as [|j]; [lia|]. simpl in Hj. destruct i as [|i]; simpl in Hi.
  - injection Hi as <-. rewrite Forall_forall in Ha. apply Ha. eapply nth_error_In; eauto.
  - apply (IH i j); auto; lia.
Qed.

Lemma FOP_of_nth {B} (R : B -> B -> Prop) l :
  (forall i j x y, i < j -> nth_error l i = Some x -> nth_error l j = Some y -> R x y) -> ForallOrdPairs R l.
Proof.
  induction l as [|a l IH]; intros H; constructor.
  - apply Forall_forall. intros y Hy. apply In_nth_error in Hy as [j Hj]. apply (H 0 (S j)); auto; lia.
  - apply IH. intros i j x y Hij Hi Hj. apply (H (S i) (S j)); auto; lia.
Qed.

Section Order.
Context {A : Arith} {V K : Type} (kone : K) (L : OrdLaws A).
Notation sync := (sync A V K).
Notation sigset := (@sigset A V K).

Lemma distinct_ok (l : list sync) : distinct_starts l -> 2 <= length l -> forall s, In s l -> ok L (s_start s).
Proof.
  intros H Hl s Hs. apply In_nth_error in Hs as [i Hi].
  destruct (Nat.eq_dec i 0) as [->|Hne].
  - destruct (nth_error l 1) as [y|] eqn:Hy; [|apply nth_error_None in Hy; lia].
    destruct (FOP_nth _ l 0 1 s y H ltac:(lia) Hi Hy) as [E|E]; apply (ltb_ok L) in E; tauto.
  - destruct (nth_error l 0) as [y|] eqn:Hy; [|apply nth_error_None in Hy; lia].
    destruct (FOP_nth _ l 0 i y s H ltac:(lia) Hy Hi) as [E|E]; apply (ltb_ok L) in E; tauto.
Qed.

Lemma distinct_eq (l : list sync) x y : distinct_starts l -> In x l -> In y l ->
  sync_lt x y = false -> sync_lt y x = false -> x = y.
Proof.
  intros H Hx Hy H1 H2. apply In_nth_error in Hx as [i Hi], Hy as [j Hj].
  destruct (Nat.lt_trichotomy i j) as [Hij|[->|Hij]].
  - destruct (FOP_nth _ l i j x y H Hij Hi Hj) as [E|E]; unfold sync_lt in *; congruence.
  - congruence.
  - destruct (FOP_nth _ l j i y x H Hij Hj Hi) as [E|E]; unfold sync_lt in *; congruence.
Qed.

Lemma distinct_perm (l l' : list sync) : Permutation l l' -> distinct_starts l -> distinct_starts l'.
Proof. apply FOP_perm. tauto. Qed.
Lemma disjoint_perm (l l' : list sync) : Permutation l l' -> disjoint_runs l -> disjoint_runs l'.
Proof. apply FOP_perm. tauto. Qed.

Lemma sort_signals_unique (l l' : list sync) : distinct_starts l -> Permutation l l' ->
  StronglySorted (fun x y => sync_lt y x = false) l' -> sort_signals l = l'.
Proof.
  intros Hd HP Hs. destruct (le_lt_dec 2 (length l)) as [Hl|Hl].
  - apply (sorted_perm_unique sync_lt).
    + rewrite <- HP. symmetry. apply sort_perm.
    + apply (sort_signals_sorted L). apply distinct_ok; assumption.
    + exact Hs.
    + intros x y Hx Hy. apply (distinct_eq l); [exact Hd| |]; apply sort_signals_In; assumption.
  - destruct l as [|x [|y l]]; simpl in Hl; [| |lia].
    + apply Permutation_nil in HP. subst. reflexivity.
    + apply Permutation_length_1_inv in HP. subst. reflexivity.
Qed.

Lemma sort_signals_perm (l l' : list sync) : distinct_starts l -> Permutation l l' ->
  sort_signals l = sort_signals l'.
Proof.
  intros Hd HP. apply sort_signals_unique; [exact Hd| |].
  - rewrite HP. apply sort_perm.
  - destruct (le_lt_dec 2 (length l')) as [Hl|Hl].
    + apply (sort_signals_sorted L). apply distinct_ok; [|exact Hl]. eapply distinct_perm; eauto.
    + destruct l' as [|x [|y l']]; simpl in Hl; [| |lia]; repeat constructor.
Qed.

(** ** C05: the order of the arguments is irrelevant *)
Lemma mapM_interval_err (l : list sync) e : mapM s_interval l = Err e ->
  e = ZeroDivisionError /\ exists s, In s l /\ neqb A (s_rate s) (nzero A) = true.
Proof.
  induction l as [|s l IH]; simpl; [discriminate|].
  destruct (s_interval s) as [iv|e'] eqn:E; simpl.
  - destruct (mapM s_interval l) as [r|e''] eqn:Er; simpl; intros H; [discriminate|].
    injection H as <-. destruct (IH eq_refl) as [-> (s' & Hs' & Hr)]. split; [reflexivity|]. exists s'. auto.
  - intros H; injection H as <-. unfold s_interval, s_stop, index_to_time in E.
    destruct (neqb A (s_rate s) (nzero A)) eqn:En; simpl in E; [|discriminate].
    split; [congruence|]. exists s. auto.
Qed.

Lemma set_of_syncs_perm tg (l l' : list sync) : distinct_starts l -> Permutation l l' ->
  set_of_syncs tg l = set_of_syncs tg l'.
Proof.
  intros Hd HP. unfold set_of_syncs. rewrite (sort_signals_perm l l' Hd HP).
  assert (E1 : (length (dedup Nat.eqb (map (fun s => length (s_data s)) l)) <=? 1) =
               (length (dedup Nat.eqb (map (fun s => length (s_data s)) l')) <=? 1)).
  { f_equal. apply Permutation_length. apply NoDup_Permutation; try apply (NoDup_dedup _ nat_eqb_iff).
    intros x. rewrite !(In_dedup _ nat_eqb_iff), !in_map_iff.
    split; intros (s & E & Hs); exists s; (split; [exact E|]); (eapply Permutation_in; [|exact Hs]); [|symmetry]; exact HP. }
  rewrite E1. destruct (check _ AssertionError); simpl; [|reflexivity].
  destruct (mapM s_interval l) as [ivs|e] eqn:Ei, (mapM s_interval l') as [ivs'|e'] eqn:Ei'; simpl.
  - apply mapM_interval in Ei as [_ ->], Ei' as [_ ->].
    unfold sort_intervals. rewrite !(sort_map sync_lt) by reflexivity.
    change (stable_sort sync_lt l) with (sort_signals l). change (stable_sort sync_lt l') with (sort_signals l').
    rewrite (sort_signals_perm l l' Hd HP). reflexivity.
  - apply mapM_interval_err in Ei' as [-> (s & Hs & Hr)]. apply mapM_interval in Ei as [Hr' _].
    rewrite Hr' in Hr; [discriminate|]. eapply Permutation_in; [symmetry; exact HP|exact Hs].
  - apply mapM_interval_err in Ei as [-> (s & Hs & Hr)]. apply mapM_interval in Ei' as [Hr' _].
    rewrite Hr' in Hr; [discriminate|]. eapply Permutation_in; [exact HP|exact Hs].
  - apply mapM_interval_err in Ei as [-> _], Ei' as [-> _]. reflexivity.
Qed.

(** ** C06: when the constructor accepts *)
Lemma sorted_disjoint (l : list sync) : (forall s, In s l -> forward s) ->
  (no_overlap (map (fun s => (s_start s, last_time s)) l) = true ->
   forall i j s s', i < j -> nth_error l i = Some s -> nth_error l j = Some s' ->
     nleb A (last_time s) (s_start s') = true).
Proof.
  intros Hf Ho i j. rewrite no_overlap_nth in Ho. revert i.
  induction j as [|j IH]; intros i s s' Hij Hi Hj; [lia|].
  destruct (nth_error l j) as [m|] eqn:Hm; [|apply nth_error_None in Hm; apply nth_error_Some_lt in Hj; lia].
  assert (Hms : nleb A (last_time m) (s_start s') = true).
  { apply (Ho j (s_start m, last_time m) (s_start s', last_time s')); rewrite nth_error_map, ?Hm, ?Hj; reflexivity. }
  destruct (Nat.eq_dec i j) as [->|Hne]; [congruence|].
  apply (leb_trans A L _ (last_time m)); [|exact Hms].
  apply (leb_trans A L _ (s_start m)); [apply (IH i); auto; lia|]. apply Hf. eapply nth_error_In; eauto.
Qed.

Lemma no_overlap_iff (l : list sync) : (forall s, In s l -> forward s) -> distinct_starts l ->
  (no_overlap (map (fun s => (s_start s, last_time s)) (sort_signals l)) = true <-> disjoint_runs l).
Proof.
  intros Hf Hd. pose proof (sort_perm sync_lt l) as HP. fold (sort_signals l) in HP.
  assert (Hf' : forall s, In s (sort_signals l) -> forward s) by (intros s Hs; apply Hf, sort_signals_In, Hs).
  split.
  - intros Ho. eapply disjoint_perm; [symmetry; exact HP|]. apply FOP_of_nth.
    intros i j x y Hij Hi Hj. left. apply (sorted_disjoint _ Hf' Ho i j); assumption.
  - intros Hdj. apply no_overlap_nth. intros i x y Hx Hy.
    apply nth_error_map_some in Hx as (s & Hs & ->), Hy as (s' & Hs' & ->). simpl.
    apply (disjoint_perm _ _ HP) in Hdj. apply (distinct_perm _ _ HP) in Hd.
    destruct (FOP_nth _ _ i (S i) s s' Hdj ltac:(lia) Hs Hs') as [E|E]; [exact E|exfalso].
    assert (Hle : nltb A (s_start s') (s_start s) = false).
    { assert (2 <= length (sort_signals l)) by (apply nth_error_Some_lt in Hs'; lia).
      assert (Hso : StronglySorted (fun x y => sync_lt y x = false) (sort_signals l)).
      { apply (sort_signals_sorted L). apply distinct_ok.
        - eapply distinct_perm; [symmetry; exact HP|exact Hd].
        - rewrite <- (sort_length sync_lt). exact H. }
      apply (StronglySorted_nth _ _ Hso i (S i) s s'); auto. }
    destruct (FOP_nth _ _ i (S i) s s' Hd ltac:(lia) Hs Hs') as [G|G]; [|congruence].
    assert (Hf1 : forward s') by (apply Hf'; eapply nth_error_In; eauto).
    pose proof (leb_trans A L _ _ _ Hf1 E) as Hc.
    pose proof (ltb_leb_trans L _ _ _ G Hc) as Hc2. exact (ltb_irrefl L _ Hc2).
Qed.

Theorem set_new_accepts d (l : list sync) :
  l <> [] -> (forall s, In s l -> sync_ok s) -> (forall s, In s l -> forward s) -> distinct_starts l ->
  ~ In "indices"%string (map fst d) ->
  ((exists X, set_new kone (TDict d) (map ASync l) = Ok X) <->
   same_channels l /\ (forall s, In s l -> neqb A (s_rate s) (nzero A) = false) /\ disjoint_runs l /\
   (forall s, In s l -> tags_legal (length (s_data s)) d)).
Proof.
  intros Hne Hok Hf Hd Hi. rewrite set_new_syncs.
  assert (Hnb : forall s, same_channels l -> In s l -> nb_channels_of (sort_signals l) None = length (s_data s)).
  { intros s Hsc Hs. destruct (sort_signals l) as [|s0 l0] eqn:E.
    - exfalso. apply (sort_signals_In l s) in Hs. rewrite E in Hs. destruct Hs.
    - simpl. apply Hsc; [|exact Hs]. apply sort_signals_In. rewrite E. left; reflexivity. }
  assert (Hpos : forall s, In s l -> (length (s_data s) =? 0) = false).
  { intros s Hs. apply Nat.eqb_neq. pose proof (so_chan _ (Hok s Hs)). destruct (s_data s); [congruence|discriminate]. }
  destruct l as [|s0 l0] eqn:El; [congruence|]. rewrite <- El in *.
  assert (Hs0 : In s0 l) by (rewrite El; left; reflexivity).
  split.
  - intros [X HX]. apply set_of_syncs_inv in HX as (Hsc & Hr & _ & Ho & Ht).
    split; [exact Hsc|]. split; [exact Hr|]. split; [apply no_overlap_iff; assumption|].
    intros s Hs. unfold set_tags in Ht. rewrite (Hnb s Hsc Hs), (Hpos s Hs) in Ht. simpl in Ht.
    intros k v Hkv.
    destruct (proj1 (tags_new_ok_iff (Some (Z.of_nat (length (s_data s)))) d Hi) (ex_intro _ _ Ht) k v Hkv) as [H1 H2].
    rewrite Nat2Z.id in H2. auto.
  - intros (Hsc & Hr & Hdj & Ht). rewrite set_of_syncs_ok; [|exact Hsc|exact Hr|apply no_overlap_iff; assumption].
    unfold set_tags. rewrite (Hnb s0 Hsc Hs0), (Hpos s0 Hs0). simpl.
    destruct (proj2 (tags_new_ok_iff (Some (Z.of_nat (length (s_data s0)))) d Hi)) as [t Htt].
    { intros k v Hkv. rewrite Nat2Z.id. apply (Ht s0 Hs0 k v Hkv). }
    rewrite Htt. simpl. eauto.
Qed.

Theorem set_new_result tg (l : list sync) X : set_new kone tg (map ASync l) = Ok X ->
  Permutation l (ss_signals X).
Proof.
  rewrite set_new_syncs. intros H. apply set_of_syncs_inv in H as (_ & _ & -> & _). apply sort_perm.
Qed.

(** ** runs of a well-formed set *)
Lemma apart_all (X : sigset) : wf_set X -> (forall s, In s (ss_signals X) -> forward s) ->
  forall i j s s', i < j -> nth_error (ss_signals X) i = Some s -> nth_error (ss_signals X) j = Some s' ->
  nleb A (last_time s) (s_start s') = true.
Proof. intros HX Hf. apply sorted_disjoint; [exact Hf|]. apply no_overlap_wf, HX. Qed.

(** building a set again from some of its runs, in increasing order *)
Lemma subset_set_ok (X : sigset) idx runs : wf_set X -> plain (ss_tags X) ->
  (forall s, In s (ss_signals X) -> forward s) -> StronglySorted lt idx ->
  Forall2 (fun i s => nth_error (ss_signals X) i = Some s) idx runs ->
  exists Y, set_of_syncs (TObj (ss_tags X)) runs = Ok Y /\ ss_signals Y = runs /\
    t_dict (ss_tags Y) = t_dict (ss_tags X) /\ (runs <> [] -> ss_tags Y = ss_tags X).
Proof.
  intros HX Hp Hf Hs Hr.
  assert (Hin : forall s, In s runs -> In s (ss_signals X)).
  { intros s Hs0. apply In_nth_error in Hs0 as [j Hj].
    destruct (Forall2_nth_error_r _ _ _ _ _ Hr Hj) as (i & _ & Hi). eapply nth_error_In; eauto. }
  assert (Hsort : sort_signals runs = runs).
  { apply sort_signals_sorted_id. eapply StronglySorted_map_iff; [exact Hr| |exact Hs].
    intros i j s s' Hi Hj Hij. exact (ws_sorted X HX i j s s' Hij Hi Hj). }
  rewrite set_of_syncs_ok; rewrite ?Hsort.
  - destruct (set_tags_obj_ok runs (ss_tags X) (ws_tags X HX) Hp) as (t' & Ht' & Hd' & Heq).
    + destruct runs as [|s l]; [left; reflexivity|right]. exists s. split; [reflexivity|].
      assert (Hx : In s (ss_signals X)) by (apply Hin; left; reflexivity).
      rewrite <- (ws_chan X HX s Hx). split; [reflexivity|].
      pose proof (so_chan _ (ws_sync X HX s Hx)). destruct (s_data s); [congruence|simpl; lia].
    + rewrite Ht'. simpl. eexists. split; [reflexivity|]. simpl. auto.
  - intros s s' Hs1 Hs2. rewrite !(ws_chan X HX) by auto. reflexivity.
  - intros s Hs1. apply (ws_rate X HX). auto.
  - apply no_overlap_nth. intros i x y Hx Hy.
    apply nth_error_map_some in Hx as (s & Hs1 & ->), Hy as (s' & Hs2 & ->). simpl.
    destruct (Forall2_nth_error_r _ _ _ _ _ Hr Hs1) as (a & Ha & Ha').
    destruct (Forall2_nth_error_r _ _ _ _ _ Hr Hs2) as (b & Hb & Hb').
    apply (apart_all X HX Hf a b); auto. apply (StronglySorted_nth _ _ Hs i (S i)); auto.
Qed.

Lemma strict_starts (X : sigset) : wf_set X ->
  (forall s, In s (ss_signals X) -> nltb A (s_start s) (last_time s) = true) ->
  forall i j s s', i < j -> nth_error (ss_signals X) i = Some s -> nth_error (ss_signals X) j = Some s' ->
  nltb A (s_start s) (s_start s') = true.
Proof.
  intros HX Hf i j s s' Hij Hi Hj. apply (ltb_leb_trans L _ (last_time s)).
  - apply Hf. eapply nth_error_In; eauto.
  - apply (apart_all X HX) with (i := i) (j := j); auto. intros s0 H0. apply (ltb_leb A L). auto.
Qed.

Lemma nth_list {B} (l : list B) idx : (forall i, In i idx -> i < length l) ->
  exists r, Forall2 (fun i s => nth_error l i = Some s) idx r.
Proof.
  induction idx as [|i idx IH]; intros H; [exists []; constructor|].
  destruct IH as [r Hr]; [intros; apply H; right; assumption|].
  destruct (nth_error l i) as [x|] eqn:E; [exists (x :: r); constructor; auto|].
  apply nth_error_None in E. specialize (H i (or_introl eq_refl)). lia.
Qed.

Lemma Forall2_perm_l {B C} (R : B -> C -> Prop) l1 l2 l1' : Permutation l1 l2 -> Forall2 R l1 l1' ->
  exists l2', Permutation l1' l2' /\ Forall2 R l2 l2'.
Proof.
  intros HP. revert l1'. induction HP as [|x l l' HP IH|x y l|l l' l'' H1 IH1 H2 IH2]; intros r H.
  - inversion H; subst. exists []. split; constructor.
  - inversion H as [|? a ? b Hx Hl]; subst. destruct (IH _ Hl) as (r' & HP' & Hr'). exists (a :: r').
    split; constructor; auto.
  - inversion H as [|? a ? b Hx Hl]; subst. inversion Hl as [|? c ? d Hy Hl']; subst.
    exists (c :: a :: d). split; [apply perm_swap|]. repeat constructor; assumption.
  - destruct (IH1 _ H) as (r1 & P1 & R1). destruct (IH2 _ R1) as (r2 & P2 & R2). exists r2. split; [etransitivity; eauto|auto].
Qed.

Lemma picks_range n r idx : picks n r idx -> forall i, In i idx -> i < n.
Proof.
  destruct r as [z|sl|l|m]; simpl.
  - intros (i & -> & Hi) j [<-|[]]. apply Hi.
  - intros H i Hi. assert (0 <= Z.of_nat i < Z.of_nat n)%Z; [|lia].
    eapply slice_range_bounds; [exact H|]. apply in_map, Hi.
  - intros H i Hi. apply In_nth_error in Hi as [j Hj].
    destruct (Forall2_nth_error_r _ _ _ _ _ H Hj) as (z & _ & Hz). apply Hz.
  - intros (E & _ & H) i Hi. apply H in Hi. rewrite <- E. eapply nth_error_Some_lt; eauto.
Qed.

(** success of a selection of runs: indices in increasing order (masks, slices
    with positive step), or any order when every run lasts *)
Theorem select_runs_ok (X : sigset) r idx : wf_set X -> plain (ss_tags X) ->
  picks (nb_runs X) r idx -> NoDup idx ->
  (forall s, In s (ss_signals X) -> forward s) ->
  (StronglySorted lt idx \/ forall s, In s (ss_signals X) -> nltb A (s_start s) (last_time s) = true) ->
  exists Y, select_runs kone X r = Ok Y /\
    Forall2 (fun i s => nth_error (ss_signals X) i = Some s) (sel_of idx) (ss_signals Y) /\
    t_dict (ss_tags Y) = t_dict (ss_tags X) /\ (idx <> [] -> ss_tags Y = ss_tags X).
Proof.
  intros HX Hp Hpk Hnd Hf Hor. unfold select_runs.
  rewrite (proj2 (run_indices_spec _ _ _) Hpk). simpl.
  destruct (nth_list (ss_signals X) idx (picks_range _ _ _ Hpk)) as [runs Hr].
  assert (E : mapM (nth_res (ss_signals X)) idx = Ok runs).
  { apply mapM_Forall2. eapply Forall2_impl; [|exact Hr]. intros i s. apply nth_res_ok. }
  rewrite E. simpl. rewrite set_new_syncs.
  assert (HP : Permutation idx (sel_of idx)).
  { apply NoDup_Permutation; [exact Hnd|apply sel_of_NoDup|]. intros i. symmetry. apply sel_of_In. }
  destruct (Forall2_perm_l _ _ _ _ HP Hr) as (runs' & HPr & Hr').
  destruct (subset_set_ok X (sel_of idx) runs' HX Hp Hf (sel_of_sorted idx) Hr') as (Y & HY & Hsig & Hd & Ht).
  assert (Esync : set_of_syncs (TObj (ss_tags X)) runs = set_of_syncs (TObj (ss_tags X)) runs').
  { destruct Hor as [Hs|Hst].
    - assert (Ei : sel_of idx = idx) by (apply sorted_lt_id, Hs). rewrite Ei in Hr'.
      f_equal. clear - Hr Hr'. revert runs' Hr'. induction Hr as [|i s l l' Hi Hl IH]; intros r' H; inversion H; subst; [reflexivity|].
      f_equal; [congruence|auto].
    - apply set_of_syncs_perm; [|exact HPr]. apply FOP_of_nth.
      intros a b s s' Hab Ha Hb.
      destruct (Forall2_nth_error_r _ _ _ _ _ Hr Ha) as (i & Hi & Hi').
      destruct (Forall2_nth_error_r _ _ _ _ _ Hr Hb) as (j & Hj & Hj').
      destruct (Nat.lt_trichotomy i j) as [Hij|[->|Hij]].
      + left. apply (strict_starts X HX Hst i j); auto.
      + exfalso. assert (a = b); [|lia]. eapply NoDup_nth_error; [exact Hnd| |congruence].
        eapply nth_error_Some_lt; eauto.
      + right. apply (strict_starts X HX Hst j i); auto. }
  exists Y. rewrite Esync. split; [exact HY|]. rewrite Hsig. split; [exact Hr'|]. split; [exact Hd|].
  intros Hne. apply Ht. intros Eq. rewrite Eq in Hr'. apply Forall2_len in Hr'. apply Permutation_length in HP.
  simpl in Hr'. rewrite Hr' in HP. destruct idx; [congruence|simpl in HP; lia].
Qed.

(** selecting the same run twice fails when the run lasts *)
Theorem select_runs_twice (X : sigset) r idx s i a b : wf_set X -> picks (nb_runs X) r idx ->
  a <> b -> nth_error idx a = Some i -> nth_error idx b = Some i -> nth_error (ss_signals X) i = Some s ->
  (forall s, In s (ss_signals X) -> nltb A (s_start s) (last_time s) = true) ->
  select_runs kone X r = Err AssertionError.
Proof.
  intros HX Hpk Hab Ha Hb Hi Hst. unfold select_runs.
  rewrite (proj2 (run_indices_spec _ _ _) Hpk). simpl.
  destruct (nth_list (ss_signals X) idx (picks_range _ _ _ Hpk)) as [runs Hr].
  assert (E : mapM (nth_res (ss_signals X)) idx = Ok runs).
  { apply mapM_Forall2. eapply Forall2_impl; [|exact Hr]. intros j x. apply nth_res_ok. }
  rewrite E. simpl. rewrite set_new_syncs.
  assert (Hin : forall x, In x runs -> In x (ss_signals X)).
  { intros x Hx. apply In_nth_error in Hx as [j Hj].
    destruct (Forall2_nth_error_r _ _ _ _ _ Hr Hj) as (k & _ & Hk). eapply nth_error_In; eauto. }
  unfold set_of_syncs.
  assert (E1 : (length (dedup Nat.eqb (map (fun s => length (s_data s)) runs)) <=? 1) = true).
  { apply Nat.leb_le. destruct runs as [|x l]; [simpl; lia|].
    assert (Ed : dedup Nat.eqb (map (fun s => length (s_data s)) (x :: l)) = [length (s_data x)]).
    { apply (dedup_all_eq _ nat_eqb_iff). split; [discriminate|]. intros y Hy.
      apply in_map_iff in Hy as (x' & <- & Hx'). rewrite !(ws_chan X HX); auto. apply Hin; left; reflexivity. }
    rewrite Ed; simpl; lia. }
  rewrite E1. simpl.
  rewrite (proj2 (mapM_interval runs _) (conj (fun x Hx => ws_rate X HX x (Hin x Hx)) eq_refl)). simpl.
  unfold sort_intervals. rewrite (sort_map sync_lt) by reflexivity.
  change (stable_sort sync_lt runs) with (sort_signals runs).
  destruct (no_overlap _) eqn:Ho; [exfalso|reflexivity].
  assert (Hf : forall x, In x (sort_signals runs) -> forward x).
  { intros x Hx. apply (ltb_leb A L), Hst, Hin. apply sort_signals_In, Hx. }
  assert (Hdj : disjoint_runs runs).
  { eapply disjoint_perm; [symmetry; apply (sort_perm sync_lt)|]. apply FOP_of_nth.
    intros p q x y Hpq Hp Hq. left. apply (sorted_disjoint _ Hf Ho p q); assumption. }
  assert (Hs : In s (ss_signals X)) by (eapply nth_error_In; eauto).
  destruct (Forall2_nth_error _ _ _ _ _ Hr Ha) as (x & Hx & Hx').
  destruct (Forall2_nth_error _ _ _ _ _ Hr Hb) as (y & Hy & Hy').
  assert (x = s) by congruence. assert (y = s) by congruence. subst x y.
  assert (Hc : nleb A (last_time s) (s_start s) = true).
  { destruct (Nat.lt_trichotomy a b) as [H|[H|H]]; [|contradiction|].
    - destruct (FOP_nth _ _ a b s s Hdj H Hx Hy); assumption.
    - destruct (FOP_nth _ _ b a s s Hdj H Hy Hx); assumption. }
  exact (ltb_irrefl L _ (ltb_leb_trans L _ _ _ (Hst s Hs) Hc)).
Qed.
End Order.
