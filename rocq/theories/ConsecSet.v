(** [merge_consecutive_runs] on a set: result and success (exact arithmetic). *)
From Coq Require Import QArith Qcanon Lqa.
From Verif Require Import Base BaseLemmas SliceLemmas Arith OrdLaws QcLemmas TagsModel SpecTags TagsProofs
  SyncModel SetModel SpecSet SetProofs SpecSelect TrackProofs SelectProofs OrderProofs JoinProofs JoinOk
  SpecTime ExtractProofs ExtractSet ExcludeProofs SpecConsec GroupProofs MergeProofs MergeRuns MergeOk ConsecProofs.
Open Scope nat_scope.

Lemma NoDup_concat_map {B C} (F : B -> list C) us : NoDup us -> (forall u, NoDup (F u)) ->
  (forall u v z, In z (F u) -> In z (F v) -> u = v) -> NoDup (concat (map F us)).
Proof.
  intros Hu HF Hd. induction Hu as [|u us Hn Hu IH]; simpl; [constructor|].
  apply NoDup_app_intro; [apply HF|exact IH|]. intros z Hz Hz'. apply in_concat in Hz' as (l & Hl & Hz').
  apply in_map_iff in Hl as (v & <- & Hv). rewrite (Hd u v z Hz Hz') in Hn. contradiction.
Qed.
Lemma sorted_ranges_NoDup (L : list (nat * nat)) : StronglySorted (fun p q => snd p <= fst q) L ->
  (forall p, In p L -> fst p < snd p) -> NoDup L.
Proof.
  induction 1 as [|p L HL IH Hp]; intros H; constructor; [|apply IH; intros; apply H; right; assumption].
  intros Hin. rewrite Forall_forall in Hp. specialize (Hp p Hin). specialize (H p (or_introl eq_refl)). lia.
Qed.
Lemma maxrange_inj c a m x y x' y' i : maxrange c a m x y -> maxrange c a m x' y' -> x <= i < y -> x' <= i < y' ->
  x = x' /\ y = y'.
Proof.
  intros (H1 & H2 & H3 & H4 & H5) (G1 & G2 & G3 & G4 & G5) Hi Hi'. split.
  - destruct (Nat.lt_trichotomy x x') as [L|[L|L]]; [exfalso| exact L|exfalso].
    + destruct G4 as [G4|G4]; [lia|]. rewrite H3 in G4 by lia. discriminate.
    + destruct H4 as [H4|H4]; [lia|]. rewrite G3 in H4 by lia. discriminate.
  - destruct (Nat.lt_trichotomy y y') as [L|[L|L]]; [exfalso| exact L|exfalso].
    + destruct H5 as [H5|H5]; [lia|]. rewrite G3 in H5 by lia. discriminate.
    + destruct G5 as [G5|G5]; [lia|]. rewrite H3 in G5 by lia. discriminate.
Qed.

(** marked positions *)
Definition inrange (g : nat * option nat) (i : nat) : bool :=
  (fst g <=? i) && match snd g with None => true | Some e => i <? e end.
Lemma inrange_iff n g i : i < n -> inrange g i = true <-> fst g <= i < g_end n g.
Proof.
  intros Hi. unfold inrange, g_end. rewrite andb_true_iff, Nat.leb_le. destruct (snd g); [rewrite Nat.ltb_lt; lia|lia].
Qed.
Lemma combine_seq_nth {B} (l : list B) i : forall a, nth_error (combine (seq a (length l)) l) i = option_map (fun b => (a + i, b)) (nth_error l i).
Proof.
  revert i. induction l as [|x l IH]; intros [|i] a; simpl; try reflexivity; [rewrite Nat.add_0_r; reflexivity|].
  rewrite IH. destruct (nth_error l i); simpl; [|reflexivity]. f_equal. f_equal. lia.
Qed.
Lemma mark_nth g a i : nth_error (mark g a) i = option_map (fun b => b || inrange g i) (nth_error a i).
Proof.
  unfold mark. rewrite nth_error_map, combine_seq_nth. destruct (nth_error a i); simpl; [|reflexivity]. unfold inrange. reflexivity.
Qed.
Lemma marks_nth {B} (f : B -> nat * option nat) L i : forall a, nth_error (fold_left (fun a p => mark (f p) a) L a) i =
  option_map (fun b => b || existsb (fun p => inrange (f p) i) L) (nth_error a i).
Proof.
  induction L as [|p L IH]; intros a; simpl.
  - destruct (nth_error a i); simpl; [rewrite orb_false_r|]; reflexivity.
  - rewrite IH, mark_nth. destruct (nth_error a i); simpl; [rewrite orb_assoc|]; reflexivity.
Qed.
Lemma nth_error_repeat' {B} (x : B) n i : nth_error (repeat x n) i = if i <? n then Some x else None.
Proof. revert i. induction n as [|n IH]; intros [|i]; simpl; try reflexivity. rewrite IH. reflexivity. Qed.

Section ConsecSet.
Context {V K : Type} (kone : K).
Notation sync := (sync QA V K).
Notation sigset := (@sigset QA V K).
Notation seg := (@seg QA V K).

(** ** the groups of a set *)
Definition rates (l : list sync) : list Qc := np_unique (A := QA) (map (fun s => s_rate s) l).
Definition groups (l : list sync) : list (Qc * (nat * option nat)) :=
  concat (map (fun ρ => map (pair ρ) (group_indices (flags ρ l))) (rates l)).

Lemma rates_In (l : list sync) ρ : In ρ (rates l) <-> exists r, In r l /\ s_rate r = ρ.
Proof.
  unfold rates, np_unique. rewrite sort_In, (In_dedup (neqb QA) Qceqb_iff), in_map_iff.
  split; intros (r & H1 & H2); eauto.
Qed.
Lemma rates_NoDup (l : list sync) : NoDup (rates l).
Proof.
  unfold rates, np_unique. eapply Permutation_NoDup; [apply sort_perm|]. apply (NoDup_dedup _ Qceqb_iff).
Qed.

Lemma groups_In (l : list sync) p : In p (groups l) ->
  S (fst (snd p)) < g_end (length l) (snd p) /\ maxrange (conn l) 0 (length l) (fst (snd p)) (g_end (length l) (snd p)) /\
  exists r, nth_error l (fst (snd p)) = Some r /\ s_rate r = fst p.
Proof.
  intros H. apply in_concat in H as (L & HL & H). apply in_map_iff in HL as (ρ & <- & _). apply in_map_iff in H as (g & <- & Hg).
  apply groups_ranges. change (fst (snd (ρ, g)), g_end (length l) (snd (ρ, g))) with (rng (length l) g). apply in_map, Hg.
Qed.
Lemma groups_all (l : list sync) x y : S x < y -> maxrange (conn l) 0 (length l) x y ->
  In (x, y) (map (fun p => rng (length l) (snd p)) (groups l)).
Proof.
  intros Hxy M. assert (Hx : x < length l) by (unfold maxrange in M; lia).
  destruct (nth_error l x) as [r|] eqn:E; [|apply nth_error_None in E; lia].
  assert (H : In (x, y) (map (rng (length l)) (group_indices (flags (s_rate r) l)))) by (apply groups_ranges; eauto).
  apply in_map_iff in H as (g & Eg & Hg). apply in_map_iff. exists (s_rate r, g). split; [exact Eg|].
  apply in_concat. exists (map (pair (s_rate r)) (group_indices (flags (s_rate r) l))). split; [|apply in_map, Hg].
  apply in_map_iff. exists (s_rate r). split; [reflexivity|]. apply rates_In. exists r. split; [eapply nth_error_In; eauto|reflexivity].
Qed.
Lemma groups_NoDup (l : list sync) : NoDup (map (fun p => rng (length l) (snd p)) (groups l)).
Proof.
  unfold groups. rewrite concat_map, map_map.
  rewrite (map_ext _ (fun ρ => map (rng (length l)) (group_indices (flags ρ l)))) by (intros; rewrite map_map; reflexivity).
  apply NoDup_concat_map; [apply rates_NoDup| |].
  - intros ρ. apply sorted_ranges_NoDup.
    + pose proof (group_indices_sorted (flags ρ l)) as S. induction S as [|g L HL IH Hg]; simpl; constructor; [exact IH|].
      apply Forall_forall. intros q Hq. apply in_map_iff in Hq as (h & <- & Hh). rewrite Forall_forall in Hg.
      destruct (Hg h Hh) as (e & He & Hle). unfold rng, g_end. simpl. rewrite He. exact Hle.
    + intros [x y] H. apply groups_ranges in H. simpl. lia.
  - intros ρ ρ' [x y] H H'. apply groups_ranges in H as (_ & _ & r & Hr & <-), H' as (_ & _ & r' & Hr' & <-). congruence.
Qed.

Lemma groups_perm (l : list sync) I : StronglySorted lt I ->
  (forall i, In i I <-> i < length l /\ forall p, In p (groups l) -> ~ (fst (snd p) <= i < g_end (length l) (snd p))) ->
  Permutation (map (fun p => rng (length l) (snd p)) (groups l) ++ map (fun i => (i, S i)) I) (ranges (conn l) 0 (length l)).
Proof.
  intros HI Hi.
  assert (HndI : NoDup I).
  { clear - HI. induction HI as [|x I HI IH Hx]; constructor; [|exact IH]. intros H. rewrite Forall_forall in Hx. specialize (Hx x H). lia. }
  apply NoDup_Permutation.
  - apply NoDup_app_intro; [apply groups_NoDup| |].
    + clear - HndI. induction HndI as [|x I Hx HI IH]; simpl; constructor; [|exact IH]. intros H. apply in_map_iff in H as (j & E & Hj). injection E as ->. contradiction.
    + intros [x y] H H'. apply in_map_iff in H as (p & E & Hp). apply in_map_iff in H' as (i & E' & _). apply groups_In in Hp as (Hp & _).
      unfold rng in E. injection E as <- <-. injection E' as E1 E2. lia.
  - apply sorted_ranges_NoDup; [apply ranges_sorted|]. intros [x y] H. apply ranges_spec in H. unfold maxrange in H. simpl. lia.
  - intros [x y]. rewrite in_app_iff, ranges_spec. simpl. split.
    + intros [H|H].
      * apply in_map_iff in H as (p & E & Hp). apply groups_In in Hp as (_ & Hp & _). unfold rng in E. injection E as <- <-. exact Hp.
      * apply in_map_iff in H as (i & E & H). injection E as <- <-. apply Hi in H as [Hlt Hno].
        assert (Hseq : In i (seq 0 (length l))) by (apply in_seq; lia). rewrite <- (ranges_tile (conn l)) in Hseq.
        apply in_concat in Hseq as (s & Hs & His). apply in_map_iff in Hs as ([x y] & <- & Hr). apply in_seq in His. simpl in His.
        apply ranges_spec in Hr. simpl in Hr. destruct (Nat.eq_dec y (S x)) as [->|Hy].
        -- assert (x = i) as -> by lia. exact Hr.
        -- exfalso. assert (Hxy : x < y) by (unfold maxrange in Hr; lia). pose proof (groups_all l x y ltac:(lia) Hr) as G.
           apply in_map_iff in G as (p & E & Hp). apply (Hno p Hp). unfold rng in E. injection E as -> ->. lia.
    + intros M. destruct (Nat.eq_dec y (S x)) as [->|Hy].
      * right. apply in_map_iff. exists x. split; [reflexivity|]. apply Hi. split; [unfold maxrange in M; lia|].
        intros p Hp Hin. apply groups_In in Hp as (H1 & H2 & _).
        destruct (maxrange_inj _ _ _ _ _ _ _ x M H2) as [E1 E2]; lia.
      * left. apply groups_all; [unfold maxrange in M; lia|exact M].
Qed.

(** ** the loop *)
Definition step (X : sigset) (st : sigset * list bool) (p : Qc * (nat * option nat)) : res (sigset * list bool) :=
  let '(r, added) := st in
  m <- merge_group kone X (fst p) (snd p) ;; r' <- join kone r [ASync m] ;; Ok (r', mark (snd p) added).

Lemma mcr_eq (X : sigset) : wf_set X -> merge_consecutive_runs kone X =
  (res0 <- set_new kone (TObj (ss_tags X)) [] ;;
   '(res1, added) <- foldM (step X) (res0, repeat false (nb_runs X)) (groups (ss_signals X)) ;;
   rest <- select_runs kone X (RunMask (map negb added)) ;; join kone res1 [ASet rest]).
Proof.
  intros HX. unfold merge_consecutive_runs. apply bind_ext'. intros res0.
  assert (E : (if length (map (fun s : sync => s_rate s) (ss_signals X)) =? 0 then Ok [] else intervals X) = Ok (map iv_of (ss_signals X))).
  { destruct (Nat.eqb_spec (length (map (fun s : sync => s_rate s) (ss_signals X))) 0) as [E|E].
    - rewrite map_length in E. apply length_zero_iff_nil in E. rewrite E. reflexivity.
    - unfold intervals. apply (proj2 (mapM_interval (ss_signals X) _)). split; [apply (ws_rate X HX)|reflexivity]. }
  etransitivity; [exact (bind_eq _ _ _ E)|]. cbn [bind].
  unfold groups. rewrite <- (foldM_concat (fun st ρ g => step X st (ρ, g)) (fun ρ => group_indices (flags ρ (ss_signals X)))).
  reflexivity.
Qed.

(** joining one run *)
Lemma join_one (r : sigset) m : wf_set r -> join kone r [ASync m] = set_of_syncs (TObj (ss_tags r)) (ss_signals r ++ [m]).
Proof. intros Hr. unfold join, set_new. cbn [mapM]. rewrite (reorder_self kone r Hr). reflexivity. Qed.

(** reordering to tags with the same table changes nothing *)
Lemma reorder_same_dict (Y Y' : sigset) t : wf_set Y -> tags_valid t -> t_dict (ss_tags Y) = t_dict t ->
  reorder kone Y (TObj t) = Ok Y' -> ss_signals Y' = ss_signals Y.
Proof.
  intros HY Hv Hd H. destruct (tags_eqb (ss_tags Y) t) eqn:E; [unfold reorder in H; rewrite E in H; injection H as <-; reflexivity|].
  destruct (reorder_reduce kone Y t (ws_tags Y HY) Hv E) as (inv & I1 & I2 & Eq).
  { apply same_dict_keys, Hd. } { apply same_dict_aliases; [exact Hv|apply (ws_tags Y HY)|congruence]. }
  rewrite Eq in H. clear Eq. apply bind_ok in H as (sigs & Hsigs & H).
  assert (Inv : forall c c0, inv c = Ok c0 -> c0 = c).
  { intros c c0 Hc. destruct (in_dec Nat.eq_dec c (concat (map snd (t_dict t)))) as [Hin|Hn].
    - apply in_concat in Hin as (l & Hl & Hc'). apply in_map_iff in Hl as ([k l'] & El & Hk). simpl in El. subst l'.
      apply In_nth_error in Hc' as [p Hp]. destruct (I1 k l p c Hk Hp) as (l0 & c1 & R0 & N0 & E0).
      rewrite Hc in E0. injection E0 as <-. unfold reads in R0. rewrite Hd in R0.
      pose proof (proj1 (reads_dget _ _ _ Hv) R0). pose proof (proj1 (reads_dget _ _ _ Hv) (Hk : reads t k l)). congruence.
    - rewrite I2 in Hc; [discriminate|]. intros k l Hk Hc'. apply Hn. apply in_concat. exists l. split; [|exact Hc'].
      apply in_map_iff. exists (k, l). auto. }
  assert (InvL : forall l1 l2, Forall2 (fun a b => inv a = Ok b) l1 l2 -> l2 = l1).
  { clear - Inv. intros l1 l2 F. induction F as [|a b l1 l2 Hab _ IH]; [reflexivity|]. rewrite (Inv a b Hab), IH. reflexivity. }
  assert (Es : sigs = ss_signals Y).
  { apply mapM_Forall2 in Hsigs. clear H. pose proof (ws_sync Y HY) as Hok.
    assert (Hn : forall s, In s (ss_signals Y) -> length (s_data s) = nb_channels Y).
    { intros s Hs. unfold nb_channels, nb_channels_of. destruct (ss_signals Y) as [|s0 l] eqn:El; [destruct Hs|].
      rewrite !(ws_chan Y HY); [reflexivity|rewrite El; left; reflexivity|rewrite El; exact Hs]. }
    revert Hok Hn Hsigs. generalize (nb_channels Y). intros N Hok Hn Hsigs. induction Hsigs as [|s s' l l' Hs Hl IH]; [reflexivity|]. f_equal.
    - apply bind_ok in Hs as (idx & Hidx & Hs). apply mapM_Forall2 in Hidx.
      assert (idx = seq 0 N) as ->.
      { apply InvL, Hidx. }
      apply s_select_inv in Hs as (O1 & O2 & O3 & O4 & O5). rewrite <- (Hn s) in O4, O5 by (left; reflexivity).
      rewrite mapM_nth_seq in O4. rewrite <- (so_cal s (Hok s (or_introl eq_refl))), mapM_nth_seq in O5.
      injection O4 as O4. injection O5 as O5. destruct s, s'. simpl in *. subst. f_equal.
      eapply (sync_size_unique (A := QA) (mkSync _ _ _ _ _) (mkSync _ _ _ _ _) O1 (Hok _ (or_introl eq_refl))). reflexivity.
    - apply IH; intros; [apply Hok|apply Hn]; right; assumption. }
  subst sigs. apply set_of_syncs_inv in H as (_ & _ & -> & _). apply sort_signals_sorted_id.
  apply StronglySorted_of_nth. intros i j s s' Hij Hi Hj. exact (ws_sorted Y HY i j s s' Hij Hi Hj).
Qed.

Definition entry (X : sigset) (p : Qc * (nat * option nat)) (m : sync) : Prop := merge_group kone X (fst p) (snd p) = Ok m.

Lemma loop_inv (X : sigset) L : (forall p, In p L -> In p (groups (ss_signals X))) -> wf_set X ->
  forall r a r' a', wf_set r -> foldM (step X) (r, a) L = Ok (r', a') ->
  exists ms, Forall2 (entry X) L ms /\ Permutation (ss_signals r ++ ms) (ss_signals r') /\ t_dict (ss_tags r') = t_dict (ss_tags r) /\
    wf_set r' /\ a' = fold_left (fun a p => mark (snd p) a) L a.
Proof.
  intros HL HX. induction L as [|p L IH]; intros r a r' a' Hr H.
  - injection H as <- <-. exists []. rewrite app_nil_r. split; [constructor|]. auto.
  - cbn [foldM] in H. apply bind_ok in H as ([r1 a1] & H1 & H). unfold step in H1.
    apply bind_ok in H1 as (m & Hm & H1). apply bind_ok in H1 as (r2 & Hj & H1). injection H1 as <- <-.
    assert (Hmok : sync_ok m).
    { destruct (groups_In _ p (HL p (or_introl eq_refl))) as (G1 & G2 & _). apply merge_group_inv in Hm as (r0 & b0 & _ & Hok & _); [exact Hok|exact HX|].
      unfold maxrange in G2. unfold nb_runs. lia. }
    assert (Hr2 : wf_set r2).
    { eapply (join_wf kone QA_ord); [exact Hr| | |exact Hj]; [intros s [E|[]]; injection E as <-; exact Hmok|intros Z [E|[]]; discriminate]. }
    rewrite join_one in Hj by exact Hr. apply set_of_syncs_inv in Hj as (_ & _ & Hs & _ & Ht).
    apply set_tags_obj in Ht; [|apply (ws_tags r Hr)].
    destruct (IH (fun q Hq => HL q (or_intror Hq)) r2 _ r' a' Hr2 H) as (ms & I1 & I2 & I3 & I4 & I5).
    exists (m :: ms). split; [constructor; [exact Hm|exact I1]|]. split; [|split; [congruence|split; [exact I4|exact I5]]].
    etransitivity; [|exact I2]. rewrite Hs. etransitivity; [|apply Permutation_app_tail; apply (sort_perm sync_lt)].
    rewrite <- app_assoc. reflexivity.
Qed.

(** the run made of the runs of a range *)
Definition fits (X : sigset) (xy : nat * nat) (m : sync) : Prop := sync_ok m /\ glued (sub (ss_signals X) (fst xy) (snd xy)) m.

Lemma sub_In {B} (l : list B) x y r : In r (sub l x y) -> In r l.
Proof.
  unfold sub. intros H. rewrite <- (firstn_skipn x l). apply in_or_app. right.
  rewrite <- (firstn_skipn (y - x) (skipn x l)). apply in_or_app. left. exact H.
Qed.
Lemma sub_one {B} (l : list B) i r : nth_error l i = Some r -> sub l i (S i) = [r].
Proof. intros H. unfold sub. replace (S i - i) with 1 by lia. rewrite (skipn_nth l i r H). reflexivity. Qed.
Lemma entry_fits (X : sigset) p m : wf_set X -> In p (groups (ss_signals X)) -> entry X p m ->
  fits X (rng (nb_runs X) (snd p)) m.
Proof.
  intros HX Hp Hm. destruct (groups_In _ p Hp) as (H1 & H2 & r & Hr & Er). pose proof H2 as H2'. unfold maxrange in H2'.
  fold (nb_runs X) in *. apply merge_group_inv in Hm as (r0 & b0 & Hb & Hok & R & St & C & D); [|exact HX|lia].
  split; [exact Hok|]. unfold rng. cbn [fst snd].
  assert (E0 : r0 = r). { assert (E : nth_error (sub (ss_signals X) (fst (snd p)) (g_end (nb_runs X) (snd p))) 0 = Some r0) by (rewrite Hb; reflexivity).
    rewrite sub_nth in E by lia. rewrite Nat.add_0_r in E. congruence. }
  assert (Hin : forall r', In r' (sub (ss_signals X) (fst (snd p)) (g_end (nb_runs X) (snd p))) -> In r' (ss_signals X)) by (intros; eapply sub_In; eauto).
  apply (glued_intro _ r0 b0).
  - exact Hb.
  - intros r' Hr'. apply (ws_sync X HX), Hin, Hr'.
  - intros r' Hr'. rewrite !(ws_chan X HX); [reflexivity|apply Hin; rewrite Hb; left; reflexivity|apply Hin, Hr'].
  - intros r' Hr'. rewrite R, <- Er. apply In_nth_error in Hr' as [k Hk].
    assert (Hlt : k < g_end (nb_runs X) (snd p) - fst (snd p)).
    { apply nth_error_Some_lt in Hk. rewrite sub_length in Hk by (fold (nb_runs X); lia). exact Hk. }
    rewrite sub_nth in Hk by exact Hlt. symmetry.
    apply (range_rate (ss_signals X) (fst (snd p)) (g_end (nb_runs X) (snd p)) r) with (i := fst (snd p) + k); [apply H2|exact Hr|lia|exact Hk].
  - exact Hok.
  - exact St.
  - exact C.
  - rewrite Hb. exact D.
Qed.

Lemma fits_start (X : sigset) xy m r : fits X xy m -> fst xy < snd xy -> nth_error (ss_signals X) (fst xy) = Some r -> s_start m = s_start r.
Proof.
  intros [_ (r0 & b0 & Hb & Hs & _)] Hlt Hr. rewrite Hs. f_equal.
  assert (E : nth_error (sub (ss_signals X) (fst xy) (snd xy)) 0 = Some r0) by (rewrite Hb; reflexivity).
  rewrite sub_nth in E by lia. rewrite Nat.add_0_r in E. congruence.
Qed.

Definition unmarked (l : list sync) (i : nat) : Prop :=
  i < length l /\ forall p, In p (groups l) -> ~ (fst (snd p) <= i < g_end (length l) (snd p)).
Lemma unmarked_mask (X : sigset) i :
  nth_error (map negb (fold_left (fun a p => mark (snd p) a) (groups (ss_signals X)) (repeat false (nb_runs X)))) i = Some true <->
  unmarked (ss_signals X) i.
Proof.
  rewrite nth_error_map, marks_nth, nth_error_repeat'. unfold unmarked. fold (nb_runs X). destruct (Nat.ltb_spec i (nb_runs X)) as [Hi|Hi]; simpl.
  - destruct (existsb (fun p => inrange (snd p) i) (groups (ss_signals X))) eqn:E; simpl.
    + split; [discriminate|]. intros [_ H]. apply existsb_exists in E as (p & Hp & Ep). exfalso. apply (H p Hp).
      apply inrange_iff; [exact Hi|exact Ep].
    + split; [|reflexivity]. intros _. split; [exact Hi|]. intros p Hp Hin. rewrite <- not_true_iff_false in E. apply E.
      apply existsb_exists. exists p. split; [exact Hp|]. apply (inrange_iff (nb_runs X)); assumption.
  - split; [discriminate|]. intros [H _]. lia.
Qed.
Lemma mask_length (X : sigset) : length (map negb (fold_left (fun a p => mark (snd p) a) (groups (ss_signals X)) (repeat false (nb_runs X)))) = nb_runs X.
Proof.
  rewrite map_length. rewrite <- (repeat_length false (nb_runs X)) at 2. generalize (repeat false (nb_runs X)).
  induction (groups (ss_signals X)) as [|p L IH]; intros a; [reflexivity|]. simpl. rewrite IH. unfold mark.
  rewrite map_length, combine_length, seq_length. lia.
Qed.

Definition all_ranges (X : sigset) : list (nat * nat) := ranges (conn (ss_signals X)) 0 (nb_runs X).

Lemma fits_sorted (X : sigset) ms : wf_set X -> Forall2 (fits X) (all_ranges X) ms ->
  StronglySorted (fun x y => sync_lt y x = false) ms.
Proof.
  intros HX H. pose proof (ranges_sorted (conn (ss_signals X)) (nb_runs X) 0) as S. fold (all_ranges X) in S.
  assert (R : forall xy, In xy (all_ranges X) -> fst xy < snd xy <= nb_runs X).
  { intros [x y] Hxy. apply ranges_spec in Hxy. unfold maxrange in Hxy. simpl. lia. }
  revert S R. induction H as [|p m L ms Hp HL IH]; intros S R; constructor.
  - apply StronglySorted_inv in S as [S _]. apply IH; [exact S|intros; apply R; right; assumption].
  - apply StronglySorted_inv in S as [_ S]. rewrite Forall_forall in *. intros m' Hm'.
    destruct (Forall2_In_r' _ _ _ _ HL Hm') as (q & Hq & Hf). specialize (S q Hq).
    pose proof (R p (or_introl eq_refl)) as Rp. pose proof (R q (or_intror Hq)) as Rq.
    destruct (nth_error (ss_signals X) (fst p)) as [r|] eqn:E; [|apply nth_error_None in E; unfold nb_runs in *; lia].
    destruct (nth_error (ss_signals X) (fst q)) as [r'|] eqn:E'; [|apply nth_error_None in E'; unfold nb_runs in *; lia].
    unfold sync_lt. rewrite (fits_start X p m r Hp ltac:(lia) E), (fits_start X q m' r' Hf ltac:(lia) E').
    apply (ws_sorted X HX (fst p) (fst q)); [lia|exact E|exact E'].
Qed.
Lemma fits_distinct (X : sigset) L ms : distinct_starts (ss_signals X) -> NoDup L -> incl L (all_ranges X) ->
  Forall2 (fits X) L ms -> distinct_starts ms.
Proof.
  intros Hd Hnd Hin H. apply FOP_of_nth. intros i j m m' Hij Hi Hj.
  destruct (Forall2_nth_error_r _ _ _ _ _ H Hi) as ([x y] & Lp & Fp). destruct (Forall2_nth_error_r _ _ _ _ _ H Hj) as ([x' y'] & Lq & Fq).
  assert (Rp : maxrange (conn (ss_signals X)) 0 (nb_runs X) x y) by (apply (proj1 (ranges_spec _ (nb_runs X) 0 _ _)), Hin; eapply nth_error_In; eauto).
  assert (Rq : maxrange (conn (ss_signals X)) 0 (nb_runs X) x' y') by (apply (proj1 (ranges_spec _ (nb_runs X) 0 _ _)), Hin; eapply nth_error_In; eauto).
  assert (Hne : x <> x').
  { intros ->. destruct (maxrange_inj _ _ _ _ _ _ _ x' Rp Rq) as [_ ->]; [unfold maxrange in *; lia|unfold maxrange in *; lia|].
    assert (i = j); [|lia]. eapply NoDup_nth_error; [exact Hnd|eapply nth_error_Some_lt; eauto|congruence]. }
  unfold maxrange in Rp, Rq.
  destruct (nth_error (ss_signals X) x) as [r|] eqn:E; [|apply nth_error_None in E; unfold nb_runs in *; lia].
  destruct (nth_error (ss_signals X) x') as [r'|] eqn:E'; [|apply nth_error_None in E'; unfold nb_runs in *; lia].
  rewrite (fits_start X (x, y) m r Fp), (fits_start X (x', y') m' r' Fq) by (simpl; try lia; assumption).
  destruct (Nat.lt_trichotomy x x') as [Hlt|[Heq|Hlt]]; [|contradiction|].
  - exact (FOP_nth _ _ _ _ _ _ Hd Hlt E E').
  - pose proof (FOP_nth _ _ _ _ _ _ Hd Hlt E' E) as [G|G]; [right|left]; exact G.
Qed.
Lemma all_ranges_NoDup (X : sigset) : NoDup (all_ranges X).
Proof.
  apply sorted_ranges_NoDup; [apply ranges_sorted|]. intros [x y] H. apply ranges_spec in H. unfold maxrange in H. simpl. lia.
Qed.

Theorem mcr_result (X Y : sigset) : wf_set X -> distinct_starts (ss_signals X) -> merge_consecutive_runs kone X = Ok Y ->
  Forall2 (fits X) (all_ranges X) (ss_signals Y) /\ t_dict (ss_tags Y) = t_dict (ss_tags X).
Proof.
  intros HX Hd H. rewrite mcr_eq in H by exact HX. apply bind_ok in H as (res0 & H0 & H).
  apply bind_ok in H as ([res1 added] & H1 & H). apply bind_ok in H as (rest & H2 & H3).
  assert (E0 : ss_signals res0 = [] /\ t_dict (ss_tags res0) = t_dict (ss_tags X) /\ wf_set res0).
  { assert (W : wf_set res0). { eapply (set_of_syncs_wf QA_ord); [|exact H0]. intros s []. }
    apply set_of_syncs_inv in H0 as (_ & _ & Hs & _ & Ht). apply set_tags_obj in Ht; [|apply (ws_tags X HX)]. auto. }
  destruct E0 as (S0 & D0 & W0).
  destruct (loop_inv X (groups (ss_signals X)) (fun p Hp => Hp) HX _ _ _ _ W0 H1) as (ms & L1 & L2 & L3 & L4 & L5).
  rewrite S0 in L2. simpl in L2. subst added.
  assert (Wrest : wf_set rest) by exact (select_runs_wf kone QA_ord _ _ _ HX H2).
  destruct (select_runs_spec kone X _ rest HX H2) as (idx & runs & Hpk & Hr & _ & Hs & Ht). destruct Hpk as (_ & Hsort & Hidx).
  specialize (Hs Hsort).
  assert (HI : forall i, In i idx <-> unmarked (ss_signals X) i) by (intros i; rewrite Hidx; apply unmarked_mask).
  pose proof (groups_perm (ss_signals X) idx Hsort HI) as HP. fold (nb_runs X) in HP. fold (all_ranges X) in HP.
  assert (F : Forall2 (fits X) (map (fun p => rng (nb_runs X) (snd p)) (groups (ss_signals X)) ++ map (fun i => (i, S i)) idx) (ms ++ runs)).
  { apply Forall2_app.
    - assert (G : forall L, (forall p, In p L -> In p (groups (ss_signals X))) -> forall ms, Forall2 (entry X) L ms ->
                  Forall2 (fits X) (map (fun p => rng (nb_runs X) (snd p)) L) ms).
      { clear - HX. intros L HL ms H. induction H as [|p m L ms Hp _ IH]; constructor; [|apply IH; intros; apply HL; right; assumption].
        apply entry_fits; [exact HX|apply HL; left; reflexivity|exact Hp]. }
      apply G; auto.
    - clear - Hr HX. induction Hr as [|i r idx runs Hi _ IH]; constructor; [|exact IH].
      assert (Hin : In r (ss_signals X)) by (eapply nth_error_In; eauto). split; [apply (ws_sync X HX), Hin|]. cbn [fst snd].
      rewrite (sub_one _ i r Hi). apply glued_single, (ws_sync X HX), Hin. }
  destruct (Forall2_perm_l _ _ _ _ HP F) as (ms' & HPm & F').
  unfold join, set_new in H3. cbn [mapM] in H3. rewrite (reorder_self kone res1 L4) in H3. cbn [bind] in H3.
  apply bind_ok in H3 as (sets & H4 & H5). apply bind_ok in H4 as (l1 & H6 & H4). injection H4 as <-.
  apply bind_ok in H6 as (l2 & H6 & H7). injection H7 as <-. apply bind_ok in H6 as (rest' & H6 & H7). injection H7 as <-.
  apply reorder_same_dict in H6; [|exact Wrest|apply (ws_tags _ L4)|congruence]. rewrite H6 in H5.
  apply set_of_syncs_inv in H5 as (_ & _ & Es & _ & Et). apply set_tags_obj in Et; [|apply (ws_tags _ L4)].
  split; [|congruence]. simpl in Es. rewrite app_nil_r in Es. rewrite Es, Hs.
  assert (P2 : Permutation ms' (ss_signals res1 ++ runs)) by (rewrite <- HPm; apply Permutation_app_tail; exact L2).
  rewrite (sort_signals_unique QA_ord _ ms'); [exact F'| |symmetry; exact P2|apply (fits_sorted X); assumption].
  eapply distinct_perm; [exact P2|]. eapply (fits_distinct X (all_ranges X)); [exact Hd|apply all_ranges_NoDup|apply incl_refl|exact F'].
Qed.
End ConsecSet.
