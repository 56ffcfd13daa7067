(** [merge_consecutive_runs]: when it succeeds, idempotence (exact arithmetic). *)
From Coq Require Import QArith Qcanon Lqa.
From Verif Require Import Base BaseLemmas SliceLemmas Arith OrdLaws QcLemmas TagsModel SpecTags TagsProofs
  SyncModel SetModel SpecSet SetProofs SpecSelect TrackProofs SelectProofs OrderProofs JoinProofs JoinOk
  SpecTime ExtractProofs ExtractSet ExcludeProofs SpecConsec GroupProofs MergeProofs MergeRuns MergeOk ConsecProofs ConsecSet ConsecTime.
Open Scope nat_scope.

Section ConsecOk.
Context {V K : Type} (kone : K).
Notation sync := (sync QA V K).
Notation sigset := (@sigset QA V K).

(** the domain of the success theorem *)
Record regular (X : sigset) : Prop := {
  rg_wf : wf_set X;
  rg_plain : plain (ss_tags X);
  rg_pos : positive_rates X;
  rg_full : no_empty_run X;
  rg_distinct : distinct_starts (ss_signals X);
  rg_exact : exact_gaps X
}.

Lemma forward_run (s : sync) : pos (s_rate s) -> 0 < s_size s -> forward s.
Proof.
  intros Hp Hn. unfold forward. apply Qcleb_le. change (s_start s <= last_time s)%Qc. rewrite <- (sample_0 s). unfold last_time.
  apply sample_mono; [exact Hp|lia].
Qed.
Lemma regular_forward (X : sigset) : regular X -> forall s, In s (ss_signals X) -> forward s.
Proof. intros R s Hs. apply forward_run; [apply (rg_pos X R), Hs|apply (rg_full X R), Hs]. Qed.

Lemma set_tags_grow (signals : list sync) t t' s : tags_valid t -> tags_valid t' -> plain t' ->
  t_dict t = t_dict t' -> t_n t <= t_n t' -> hd_error signals = Some s -> length (s_data s) = t_n t' -> 0 < t_n t' ->
  set_tags signals None (TObj t) = Ok t'.
Proof.
  intros Hv Hv' Hp' Hd Hn Hs Hl Hpos.
  assert (Hp : plain t) by (intros k l Hk; apply (Hp' k l); unfold reads in *; rewrite <- Hd; exact Hk).
  unfold set_tags. rewrite (plain_method t "keys" Hp) by (simpl; auto 10). rewrite (plain_indices t Hp). simpl idx_list.
  destruct signals as [|s0 l]; [discriminate|]. injection Hs as ->. unfold nb_channels_of. rewrite Hl.
  destruct (Nat.eqb_spec (t_n t') 0); [lia|].
  assert (E : forallb (fun i => i <? t_n t') (seq 0 (t_n t)) = true).
  { apply forallb_forall. intros i Hi. apply in_seq in Hi. apply Nat.ltb_lt. lia. }
  rewrite E. unfold bind, check. change (tags_new (Some (Z.of_nat (t_n t'))) (arg_dict (TObj t)) = Ok t').
  rewrite tags_copy_ok; [|assumption|assumption|].
  - rewrite Nat2Z.id, Hd. destruct t'; reflexivity.
  - intros k l0 c Hr Hc. pose proof (tv_range _ Hv _ _ _ Hr Hc). lia.
Qed.

(** the runs made of ranges keep to the times of the ranges *)
Lemma fits_members (X : sigset) x y m r : In (x, y) (all_ranges X) -> fits X (x, y) m -> wf_set X -> In r (sub (ss_signals X) x y) ->
  s_rate m = s_rate r.
Proof. intros _ [_ (r0 & b0 & _ & _ & _ & Hr & _)] _ Hin. apply Hr, Hin. Qed.

Lemma range_chain (X : sigset) x y u v : In (x, y) (all_ranges X) -> adjacent (sub (ss_signals X) x y) u v ->
  follows u v /\ adjacent (ss_signals X) u v.
Proof.
  intros Hxy Hadj. split.
  - apply (bl_inside _ _ (blocks_of X)) with (b := sub (ss_signals X) x y); [|exact Hadj].
    unfold block_list. apply in_map_iff. exists (x, y). auto.
  - apply all_ranges_iff in Hxy. unfold maxrange, nb_runs in Hxy. apply adjacent_nth in Hadj as (i & H1 & H2).
    apply sub_inv in H1 as [H1 H1']; [|lia]. apply sub_inv in H2 as [H2 H2']; [|lia].
    apply adjacent_nth. exists (x + i). split; [exact H1'|]. rewrite <- H2'. f_equal. lia.
Qed.

Lemma fits_last (X : sigset) x y m r : regular X -> In (x, y) (all_ranges X) -> fits X (x, y) m ->
  nth_error (ss_signals X) (y - 1) = Some r -> last_time m = last_time r.
Proof.
  intros R Hxy Hf Hr. pose proof Hxy as M. apply all_ranges_iff in M. unfold maxrange, nb_runs in M.
  destruct Hf as [_ (r0 & b0 & Eb & Hs & _ & Hrate & _ & Hsize & _)]. cbn [fst snd] in *.
  assert (L : length (sub (ss_signals X) x y) = y - x) by (apply sub_length; lia).
  assert (Hin : In r (sub (ss_signals X) x y)).
  { apply nth_error_In with (n := y - 1 - x). rewrite sub_nth by lia. rewrite <- Hr. f_equal. lia. }
  destruct (exists_last (l := sub (ss_signals X) x y)) as (b1 & r' & E); [rewrite Eb; discriminate|].
  assert (r' = r).
  { assert (N : nth_error (sub (ss_signals X) x y) (y - x - 1) = Some r').
    { rewrite E. rewrite E, app_length in L. simpl in L. rewrite nth_error_app2 by lia. replace (y - x - 1 - length b1) with 0 by lia. reflexivity. }
    rewrite sub_nth in N by lia. replace (x + (y - x - 1)) with (y - 1) in N by lia. congruence. }
  subst r'.
  assert (Hρ : pos (s_rate m)) by (rewrite (Hrate r Hin); apply (rg_pos X R); eapply nth_error_In; eauto).
  pose proof (clock_exact (s_rate m) Hρ (sub (ss_signals X) x y) r0 r b1 E) as C.
  unfold last_time, sample_time. cbn [nadd ndiv nofZ QA]. rewrite Hs, <- (Hrate r Hin).
  rewrite <- C.
  - rewrite Hsize, E, map_app, list_sum_app. f_equal. f_equal. f_equal. simpl. lia.
  - rewrite Eb. reflexivity.
  - intros z Hz. symmetry. apply Hrate, Hz.
  - intros u v Huv. destruct (range_chain X x y u v Hxy Huv). apply (rg_exact X R); assumption.
Qed.

Lemma fits_facts (X : sigset) x y m : wf_set X -> positive_rates X -> no_empty_run X -> In (x, y) (all_ranges X) -> fits X (x, y) m ->
  length (s_data m) = t_n (ss_tags X) /\ pos (s_rate m) /\ 0 < s_size m /\ forward m.
Proof.
  intros W P N Hxy Hf. pose proof Hxy as M. apply all_ranges_iff in M. unfold maxrange, nb_runs in M.
  destruct Hf as [_ (r0 & b0 & Eb & Hs & _ & Hrate & HL & Hsize & _)]. cbn [fst snd] in *.
  assert (Hin : In r0 (ss_signals X)) by (apply (sub_In _ x y); rewrite Eb; left; reflexivity).
  assert (H1 : pos (s_rate m)) by (rewrite (Hrate r0) by (rewrite Eb; left; reflexivity); apply P, Hin).
  assert (H2 : 0 < s_size m) by (rewrite Hsize, Eb; simpl; pose proof (N r0 Hin); lia).
  split; [rewrite HL; apply (ws_chan X W), Hin|]. split; [exact H1|]. split; [exact H2|]. apply forward_run; assumption.
Qed.

Lemma fits_disjoint (X : sigset) L ms : regular X -> NoDup L -> incl L (all_ranges X) -> Forall2 (fits X) L ms -> disjoint_runs ms.
Proof.
  intros R Hnd Hin H. apply FOP_of_nth. intros i j m m' Hij Hi Hj.
  destruct (Forall2_nth_error_r _ _ _ _ _ H Hi) as ([x y] & Lp & Fp). destruct (Forall2_nth_error_r _ _ _ _ _ H Hj) as ([x' y'] & Lq & Fq).
  assert (Ip : In (x, y) (all_ranges X)) by (apply Hin; eapply nth_error_In; eauto).
  assert (Iq : In (x', y') (all_ranges X)) by (apply Hin; eapply nth_error_In; eauto).
  pose proof Ip as Rp. pose proof Iq as Rq. apply all_ranges_iff in Rp, Rq.
  assert (Hne : ~ (exists z, x <= z < y /\ x' <= z < y')).
  { intros (z & Z1 & Z2). destruct (maxrange_inj _ _ _ _ _ _ _ z Rp Rq Z1 Z2) as [-> ->].
    assert (i = j); [|lia]. eapply NoDup_nth_error; [exact Hnd|eapply nth_error_Some_lt; eauto|congruence]. }
  unfold maxrange, nb_runs in Rp, Rq.
  assert (G : forall x y m x' y' m', In (x, y) (all_ranges X) -> In (x', y') (all_ranges X) -> fits X (x, y) m -> fits X (x', y') m' ->
              x < y -> y <= x' -> x' < y' -> y' <= length (ss_signals X) -> nleb QA (last_time m) (s_start m') = true).
  { clear - R. intros x y m x' y' m' Ip Iq Fp Fq H1 H2 H3 H4.
    destruct (nth_error (ss_signals X) (y - 1)) as [r|] eqn:E; [|apply nth_error_None in E; lia].
    destruct (nth_error (ss_signals X) x') as [r'|] eqn:E'; [|apply nth_error_None in E'; lia].
    rewrite (fits_last X x y m r R Ip Fp E), (fits_start X (x', y') m' r' Fq H3 E').
    apply (apart_all QA_ord X (rg_wf X R) (regular_forward X R) (y - 1) x'); [lia|exact E|exact E']. }
  destruct (le_lt_dec y x') as [Hle|Hlt].
  - left. apply (G x y m x' y' m'); try assumption; lia.
  - right. assert (y' <= x) by (destruct (le_lt_dec y' x); [assumption|exfalso; apply Hne; exists (Nat.max x x'); lia]).
    apply (G x' y' m' x y m); try assumption; lia.
Qed.

(** the runs put end to end never overlap *)
Definition room (X : sigset) : Prop :=
  forall L ms, NoDup L -> incl L (all_ranges X) -> Forall2 (fits X) L ms -> disjoint_runs ms.
Record roomy (X : sigset) : Prop := {
  rm_wf : wf_set X; rm_plain : plain (ss_tags X); rm_pos : positive_rates X; rm_full : no_empty_run X;
  rm_distinct : distinct_starts (ss_signals X); rm_room : room X }.
Lemma regular_roomy (X : sigset) : regular X -> roomy X.
Proof. intros R. split; try apply R. intros L ms. apply fits_disjoint, R. Qed.
Lemma roomy_forward (X : sigset) : roomy X -> forall s, In s (ss_signals X) -> forward s.
Proof. intros R s Hs. apply forward_run; [apply (rm_pos X R), Hs|apply (rm_full X R), Hs]. Qed.

Lemma ranges_set (X : sigset) L ms t : roomy X -> NoDup L -> incl L (all_ranges X) -> Forall2 (fits X) L ms -> ms <> [] ->
  tags_valid t -> t_dict t = t_dict (ss_tags X) -> t_n t <= t_n (ss_tags X) ->
  set_of_syncs (TObj t) ms = Ok (mkSet (sort_signals ms) (ss_tags X)).
Proof.
  intros R Hnd Hin H Hne Hv Hd Hn. pose proof (rm_wf X R) as HX.
  assert (Hm : forall m, In m ms -> length (s_data m) = t_n (ss_tags X) /\ pos (s_rate m) /\ 0 < s_size m /\ forward m).
  { intros m Hm. destruct (Forall2_In_r' _ _ _ _ H Hm) as ([x y] & Hxy & Hf). apply (fits_facts X x y); auto; apply R. }
  rewrite set_of_syncs_ok.
  - destruct (sort_signals ms) as [|m0 l0] eqn:E.
    { exfalso. apply Hne. apply Permutation_nil. rewrite <- E. symmetry. apply (sort_perm sync_lt). }
    assert (In0 : In m0 ms) by (apply sort_signals_In; rewrite E; left; reflexivity).
    rewrite (set_tags_grow (m0 :: l0) t (ss_tags X) m0 Hv (ws_tags X HX) (rm_plain X R) Hd Hn eq_refl); [reflexivity|apply Hm, In0|].
    destruct (Forall2_In_r' _ _ _ _ H In0) as ([x y] & Hxy & [Hok _]). pose proof (so_chan _ Hok). rewrite <- (proj1 (Hm m0 In0)).
    destruct (s_data m0); [congruence|simpl; lia].
  - intros s s' H1 H2. rewrite (proj1 (Hm s H1)), (proj1 (Hm s' H2)). reflexivity.
  - intros s Hs. apply pos_eqb, Hm, Hs.
  - apply (proj2 (no_overlap_iff QA_ord ms (fun s Hs => proj2 (proj2 (proj2 (Hm s Hs)))) (fits_distinct X L ms (rm_distinct X R) Hnd Hin H))).
    apply (rm_room X R L); assumption.
Qed.

Lemma merge_group_ok (X : sigset) p : roomy X -> In p (groups (ss_signals X)) -> exists m, entry kone X p m.
Proof.
  intros R Hp. pose proof (rm_wf X R) as HX. destruct (groups_In _ p Hp) as (H1 & H2 & r & Hr & Er). unfold maxrange in H2.
  fold (nb_runs X) in *. unfold entry, merge_group. 
  set (x := fst (snd p)) in *. set (y := g_end (nb_runs X) (snd p)) in *.
  assert (Hl : y <= length (ss_signals X)) by (fold (nb_runs X); lia).
  unfold select_runs. rewrite (proj2 (run_indices_spec (nb_runs X) (RunSlice (group_slice (snd p))) (seq x (y - x)))).
  2:{ cbn [picks]. apply group_slice_range. fold x y. lia. }
  cbn [bind].
  assert (F : Forall2 (fun i s => nth_error (ss_signals X) i = Some s) (seq x (y - x)) (sub (ss_signals X) x y)) by (apply sub_Forall2; lia).
  assert (E : mapM (nth_res (ss_signals X)) (seq x (y - x)) = Ok (sub (ss_signals X) x y)).
  { apply mapM_Forall2. eapply Forall2_impl; [|exact F]. intros i s. apply nth_res_ok. }
  rewrite E. cbn [bind]. rewrite set_new_syncs.
  destruct (subset_set_ok QA_ord X (seq x (y - x)) (sub (ss_signals X) x y) HX (rm_plain X R) (roomy_forward X R) (seq_sorted _ _) F) as (Y & HY & Hs & _ & _).
  rewrite HY. cbn [bind]. unfold nb_channels. rewrite Hs. destruct (sub (ss_signals X) x y) as [|r0 b0] eqn:Eb.
  { apply (f_equal (@length _)) in Eb. rewrite sub_length in Eb by lia. simpl in Eb. lia. }
  assert (Hin : forall r', In r' (r0 :: b0) -> In r' (ss_signals X)) by (intros r' Hr'; apply (sub_In _ x y); rewrite Eb; exact Hr').
  pose proof (ws_sync X HX r0 (Hin r0 (or_introl eq_refl))) as Ok0. cbn [nb_channels_of].
  apply sync_new_exists.
  - pose proof (so_chan _ Ok0). destruct (s_data r0); [congruence|discriminate].
  - rewrite map_length, seq_length. apply (so_cal _ Ok0).
  - assert (G : forall c d, In d (map (fun i => concat (map (fun v : sync => nth i (s_data v) []) (r0 :: b0))) (seq 0 (length (s_data r0)))) ->
              c = length d -> c = list_sum (map s_size (r0 :: b0))).
    { intros c d Hd ->. apply in_map_iff in Hd as (i & <- & Hi). apply in_seq in Hi.
      assert (Hlen : forall r', In r' (r0 :: b0) -> length (nth i (s_data r') []) = s_size r').
      { intros r' Hr'. apply (so_size _ (ws_sync X HX r' (Hin r' Hr'))). apply nth_In.
        rewrite (ws_chan X HX r' (Hin r' Hr')), <- (ws_chan X HX r0 (Hin r0 (or_introl eq_refl))). lia. }
      revert Hlen. generalize (r0 :: b0). intros b Hlen. induction b as [|r' b IH]; [reflexivity|]. simpl.
      rewrite app_length, IH by (intros; apply Hlen; right; assumption). rewrite Hlen by (left; reflexivity). reflexivity. }
    intros c d Hc Hd. rewrite (G _ c Hc eq_refl), (G _ d Hd eq_refl). reflexivity.
Qed.

(** the loop *)
Lemma loop_ok (X : sigset) L : roomy X -> (forall p, In p L -> In p (groups (ss_signals X))) ->
  forall r a D ms, wf_set r -> Forall2 (fits X) D ms -> incl D (all_ranges X) ->
  NoDup (D ++ map (fun p => rng (nb_runs X) (snd p)) L) -> Permutation ms (ss_signals r) ->
  t_dict (ss_tags r) = t_dict (ss_tags X) -> t_n (ss_tags r) <= t_n (ss_tags X) ->
  exists r' a', foldM (step kone X) (r, a) L = Ok (r', a') /\ t_n (ss_tags r') <= t_n (ss_tags X) /\
                (L <> [] -> ss_tags r' = ss_tags X) /\ (L = [] -> r' = r).
Proof.
  intros R. pose proof (rm_wf X R) as HX. induction L as [|p L IH]; intros HL r a D ms Hr HF Hin Hnd HP Hd Hn.
  - exists r, a. split; [reflexivity|]. split; [exact Hn|]. split; [congruence|reflexivity].
  - destruct (merge_group_ok X p R (HL p (or_introl eq_refl))) as [m Hm].
    pose proof (entry_fits kone X p m HX (HL p (or_introl eq_refl)) Hm) as Hfm.
    assert (Hrng : In (rng (nb_runs X) (snd p)) (all_ranges X)).
    { unfold rng. apply all_ranges_iff. apply (groups_In _ p (HL p (or_introl eq_refl))). }
    cbn [foldM]. unfold step at 1. unfold entry in Hm. rewrite Hm. cbn [bind]. rewrite join_one by exact Hr.
    assert (HF' : Forall2 (fits X) (D ++ [rng (nb_runs X) (snd p)]) (ms ++ [m])) by (apply Forall2_app; [exact HF|constructor; [exact Hfm|constructor]]).
    assert (Hnd' : NoDup (D ++ [rng (nb_runs X) (snd p)])).
    { simpl in Hnd. replace (D ++ rng (nb_runs X) (snd p) :: map (fun p => rng (nb_runs X) (snd p)) L) with
        ((D ++ [rng (nb_runs X) (snd p)]) ++ map (fun p => rng (nb_runs X) (snd p)) L) in Hnd by (rewrite <- app_assoc; reflexivity).
      apply NoDup_app_inv in Hnd. apply Hnd. }
    assert (Hin' : incl (D ++ [rng (nb_runs X) (snd p)]) (all_ranges X)).
    { intros q Hq. apply in_app_or in Hq as [Hq|[<-|[]]]; [apply Hin, Hq|exact Hrng]. }
    assert (Hdist : distinct_starts (ms ++ [m])) by (apply (fits_distinct X _ _ (rm_distinct X R) Hnd' Hin' HF')).
    assert (HP' : Permutation (ms ++ [m]) (ss_signals r ++ [m])) by (apply Permutation_app_tail, HP).
    rewrite <- (set_of_syncs_perm QA_ord _ (ms ++ [m]) (ss_signals r ++ [m]) Hdist HP').
    rewrite (ranges_set X (D ++ [rng (nb_runs X) (snd p)]) (ms ++ [m]) (ss_tags r) R Hnd' Hin' HF'); [|destruct ms; discriminate|apply (ws_tags r Hr)|exact Hd|exact Hn].
    cbn [bind].
    set (r2 := mkSet (sort_signals (ms ++ [m])) (ss_tags X)).
    assert (Hr2 : wf_set r2).
    { apply (set_of_syncs_wf QA_ord (TObj (ss_tags r)) (ms ++ [m])).
      - intros s Hs. destruct (Forall2_In_r' _ _ _ _ HF' Hs) as (q & _ & Ho & _). exact Ho.
      - apply (ranges_set X (D ++ [rng (nb_runs X) (snd p)])); try assumption; [destruct ms; discriminate|apply (ws_tags r Hr)]. }
    destruct (IH (fun q Hq => HL q (or_intror Hq)) r2 (mark (snd p) a) (D ++ [rng (nb_runs X) (snd p)]) (ms ++ [m])) as (r' & a' & I1 & I2 & I3 & I4); auto.
    { rewrite <- app_assoc. exact Hnd. }
    { apply (sort_perm sync_lt). }
    exists r', a'. split; [exact I1|]. split; [exact I2|]. split; [|discriminate]. intros _.
    destruct L as [|q L]; [rewrite I4 by reflexivity; reflexivity|]. apply I3. discriminate.
Qed.

Lemma groups_none (X : sigset) : groups (ss_signals X) = [] <-> forall r r', adjacent (ss_signals X) r r' -> ~ follows r r'.
Proof.
  split.
  - intros E r r' Hadj Hf. apply adjacent_nth in Hadj as (i & H1 & H2).
    assert (C : conn (ss_signals X) i = true) by (apply conn_follows; eauto).
    assert (Hlt : i < length (ss_signals X)) by (eapply nth_error_Some_lt; eauto).
    assert (Hseq : In i (seq 0 (length (ss_signals X)))) by (apply in_seq; lia). rewrite <- (ranges_tile (conn (ss_signals X))) in Hseq.
    apply in_concat in Hseq as (s & Hs & His). apply in_map_iff in Hs as ([x y] & <- & Hr). apply in_seq in His. simpl in His.
    apply ranges_spec in Hr. simpl in Hr.
    assert (Hxy : S x < y).
    { destruct (Nat.eq_dec y (S x)) as [->|]; [|unfold maxrange in Hr; lia]. assert (x = i) as -> by lia.
      destruct Hr as (_ & _ & _ & _ & [Hr|Hr]); [apply nth_error_Some_lt in H2; lia|]. replace (S i - 1) with i in Hr by lia. congruence. }
    pose proof (groups_all (ss_signals X) x y Hxy Hr) as G. rewrite E in G. destruct G.
  - intros H. destruct (groups (ss_signals X)) as [|p L] eqn:E; [reflexivity|exfalso].
    assert (Hp : In p (groups (ss_signals X))) by (rewrite E; left; reflexivity). apply groups_In in Hp as (H1 & H2 & _).
    unfold maxrange in H2. assert (C : conn (ss_signals X) (fst (snd p)) = true) by (apply H2; lia).
    apply conn_follows in C as (r & r' & C1 & C2 & C3). apply (H r r'); [apply adjacent_nth; eauto|exact C3].
Qed.

Lemma nil_set (t : tags) : tags_valid t -> plain t -> exists t', tags_new None (arg_dict (TObj t)) = Ok t' /\
  @set_of_syncs QA V K (TObj t) [] = Ok (mkSet [] t') /\ t_dict t' = t_dict t /\ t_n t' <= t_n t.
Proof.
  intros Hv Hp. destruct (tags_copy_infer_n t Hv Hp) as (t' & H & Hd & Hn & _). exists t'. split; [exact H|]. split; [|auto].
  unfold set_of_syncs. cbn [map dedup length Nat.leb check bind mapM no_overlap sort_intervals stable_sort].
  change (sort_signals []) with (@nil sync). rewrite (set_tags_nil t Hp), H. reflexivity.
Qed.

Lemma rest_ok (X : sigset) : roomy X -> exists idx rest, StronglySorted lt idx /\
  (forall i, In i idx <-> unmarked (ss_signals X) i) /\
  select_runs kone X (RunMask (map negb (fold_left (fun a p => mark (snd p) a) (groups (ss_signals X)) (repeat false (nb_runs X))))) = Ok rest /\
  Forall2 (fun i s => nth_error (ss_signals X) i = Some s) idx (ss_signals rest) /\
  t_dict (ss_tags rest) = t_dict (ss_tags X) /\ (idx <> [] -> ss_tags rest = ss_tags X).
Proof.
  intros R. pose proof (rm_wf X R) as HX. set (m := map negb _).
  assert (Hpk : picks (nb_runs X) (RunMask m) (mask_indices m 0)).
  { cbn [picks]. split; [apply mask_length|]. split; [apply mask_indices_sorted|]. intros i. rewrite mask_indices_spec, Nat.sub_0_r.
    split; [tauto|]. intros; split; [lia|assumption]. }
  assert (Hnd : NoDup (mask_indices m 0)).
  { generalize (mask_indices_sorted m 0). clear. generalize (mask_indices m 0). intros l S. induction S as [|x I HI IH Hx]; constructor; [|exact IH].
    intros H. rewrite Forall_forall in Hx. specialize (Hx x H). lia. }
  destruct (select_runs_ok kone QA_ord X (RunMask m) (mask_indices m 0) HX (rm_plain X R) Hpk Hnd (roomy_forward X R) (or_introl (mask_indices_sorted m 0)))
    as (rest & H1 & H2 & H3 & H4).
  exists (mask_indices m 0), rest. split; [apply mask_indices_sorted|]. split.
  - intros i. rewrite (proj2 (proj2 Hpk)). apply unmarked_mask.
  - split; [exact H1|]. rewrite (sorted_lt_id _ (mask_indices_sorted m 0)) in H2. auto.
Qed.

Lemma reorder_nil (Y : sigset) t : wf_set Y -> ss_signals Y = [] -> tags_valid t -> plain t -> t_dict (ss_tags Y) = t_dict t ->
  exists Y', reorder kone Y (TObj t) = Ok Y' /\ ss_signals Y' = [].
Proof.
  intros HY Es Hv Hp Hd. destruct (tags_eqb (ss_tags Y) t) eqn:E; [exists Y; unfold reorder; rewrite E; auto|].
  destruct (reorder_reduce kone Y t (ws_tags Y HY) Hv E) as (inv & _ & _ & Eq).
  { apply same_dict_keys, Hd. } { apply same_dict_aliases; [exact Hv|apply (ws_tags Y HY)|congruence]. }
  rewrite Eq, Es. cbn [mapM bind]. destruct (nil_set t Hv Hp) as (t' & _ & H & _). rewrite H. eauto.
Qed.

Theorem mcr_ok_room (X : sigset) : roomy X ->
  ss_signals X = [] \/ top_tagged (ss_tags X) \/ (exists r r', adjacent (ss_signals X) r r' /\ follows r r') ->
  exists Y, merge_consecutive_runs kone X = Ok Y /\ (ss_signals X <> [] -> ss_tags Y = ss_tags X).
Proof.
  intros R Hor. pose proof (rm_wf X R) as HX. rewrite mcr_eq by exact HX.
  destruct (nil_set (ss_tags X) (ws_tags X HX) (rm_plain X R)) as (t0 & Ht0 & H0 & Hd0 & Hn0).
  unfold set_new at 1. cbn [mapM bind concat]. rewrite H0. cbn [bind]. set (res0 := mkSet [] t0).
  assert (W0 : wf_set res0) by (apply (set_of_syncs_wf QA_ord _ [] res0) in H0; [exact H0|intros s []]).
  destruct (loop_ok X (groups (ss_signals X)) R (fun p Hp => Hp) res0 (repeat false (nb_runs X)) [] []) as (res1 & added & H1 & Hn1 & Hg1 & Hg0); auto.
  { intros q []. } { simpl. apply groups_NoDup. }
  rewrite H1. cbn [bind].
  destruct (loop_inv kone X (groups (ss_signals X)) (fun p Hp => Hp) HX _ _ _ _ W0 H1) as (ms & L1 & L2 & L3 & L4 & L5).
  simpl in L2. subst added.
  destruct (rest_ok X R) as (idx & rest & Hsort & HI & H2 & Hr & Hdr & Htr). rewrite H2. cbn [bind].
  assert (Wrest : wf_set rest) by exact (select_runs_wf kone QA_ord _ _ _ HX H2).
  assert (Hp1 : plain (ss_tags res1)) by (intros k l Hk; apply (rm_plain X R k l); unfold reads in *; rewrite <- Hd0; change t0 with (ss_tags res0); rewrite <- L3; exact Hk).
  assert (Hd1 : t_dict (ss_tags res1) = t_dict (ss_tags X)) by (rewrite L3; exact Hd0).
  pose proof (groups_perm (ss_signals X) idx Hsort HI) as HP. fold (nb_runs X) in HP. fold (all_ranges X) in HP.
  assert (F : Forall2 (fits X) (map (fun p => rng (nb_runs X) (snd p)) (groups (ss_signals X)) ++ map (fun i => (i, S i)) idx) (ms ++ ss_signals rest)).
  { apply Forall2_app.
    - assert (G : forall L, (forall p, In p L -> In p (groups (ss_signals X))) -> forall ms, Forall2 (entry kone X) L ms ->
                  Forall2 (fits X) (map (fun p => rng (nb_runs X) (snd p)) L) ms).
      { clear - HX. intros L HL ms H. induction H as [|p m L ms Hp _ IH]; constructor; [|apply IH; intros; apply HL; right; assumption].
        apply (entry_fits kone); [exact HX|apply HL; left; reflexivity|exact Hp]. }
      apply G; auto.
    - clear - Hr HX. induction Hr as [|i r idx runs Hi _ IH]; constructor; [|exact IH].
      assert (Hin : In r (ss_signals X)) by (eapply nth_error_In; eauto). split; [apply (ws_sync X HX), Hin|]. cbn [fst snd].
      rewrite (sub_one _ i r Hi). apply glued_single, (ws_sync X HX), Hin. }
  (* the last reordering *)
  assert (Hre : exists rest', reorder kone rest (TObj (ss_tags res1)) = Ok rest' /\ ss_signals rest' = ss_signals rest).
  { destruct (ss_signals rest) as [|s0 l0] eqn:Es.
    - apply reorder_nil; [exact Wrest|exact Es|apply (ws_tags _ L4)|exact Hp1|congruence].
    - assert (Hidx : idx <> []) by (intros ->; inversion Hr). specialize (Htr Hidx).
      assert (Et : ss_tags res1 = ss_tags X).
      { destruct (groups (ss_signals X)) as [|p L] eqn:Eg; [|apply Hg1; discriminate].
        rewrite (Hg0 eq_refl). unfold res0. cbn [ss_tags]. destruct Hor as [Hor|[Hor|(r & r' & A1 & A2)]].
        - exfalso. inversion Hr as [|i ? ? ? Hi]; subst. rewrite Hor in Hi. destruct i; discriminate.
        - pose proof (top_tagged_infer _ (ws_tags X HX) (rm_plain X R) Hor) as T. congruence.
        - exfalso. apply (proj1 (groups_none X) Eg r r' A1 A2). }
      exists rest. split; [|exact Es]. rewrite Et, <- Htr. apply reorder_self, Wrest. }
  destruct Hre as (rest' & Hre & Es').
  unfold join, set_new. cbn [mapM]. rewrite (reorder_self kone res1 L4), Hre. cbn [bind concat]. rewrite app_nil_r, Es'.
  assert (P2 : Permutation (ms ++ ss_signals rest) (ss_signals res1 ++ ss_signals rest)) by (apply Permutation_app_tail; exact L2).
  assert (Hincl : incl (map (fun p => rng (nb_runs X) (snd p)) (groups (ss_signals X)) ++ map (fun i => (i, S i)) idx) (all_ranges X)).
  { intros q Hq. eapply Permutation_in; eauto. }
  assert (Hnd : NoDup (map (fun p => rng (nb_runs X) (snd p)) (groups (ss_signals X)) ++ map (fun i => (i, S i)) idx)).
  { eapply Permutation_NoDup; [symmetry; exact HP|apply all_ranges_NoDup]. }
  assert (Hdist : distinct_starts (ms ++ ss_signals rest)) by (apply (fits_distinct X _ _ (rm_distinct X R) Hnd Hincl F)).
  rewrite <- (set_of_syncs_perm QA_ord _ _ _ Hdist P2).
  destruct (ms ++ ss_signals rest) as [|m0 l0] eqn:Em.
  - destruct (nil_set (ss_tags res1) (ws_tags _ L4) Hp1) as (t2 & _ & H3 & _). rewrite H3. eexists. split; [reflexivity|].
    intros Hne. exfalso. apply Hne. apply Forall2_len in F. apply Permutation_length in HP. rewrite F in HP. simpl in HP.
    unfold all_ranges in HP. destruct (ss_signals X) as [|s l] eqn:E; [reflexivity|]. unfold nb_runs in HP. rewrite E in HP.
    destruct (ranges_hd (conn (s :: l)) (length (s :: l)) 0) as (y & rs & Er); [simpl; lia|]. rewrite Er in HP. discriminate.
  - rewrite (ranges_set X _ (m0 :: l0) (ss_tags res1) R Hnd Hincl F); [|discriminate|apply (ws_tags _ L4)|exact Hd1|exact Hn1].
    eexists. split; [reflexivity|]. reflexivity.
Qed.

Theorem mcr_ok (X : sigset) : regular X ->
  ss_signals X = [] \/ top_tagged (ss_tags X) \/ (exists r r', adjacent (ss_signals X) r r' /\ follows r r') ->
  exists Y, merge_consecutive_runs kone X = Ok Y /\ (ss_signals X <> [] -> ss_tags Y = ss_tags X).
Proof. intros R. apply mcr_ok_room, regular_roomy, R. Qed.

(** success leaves room *)
Lemma mcr_room (X Y : sigset) : wf_set X -> positive_rates X -> no_empty_run X -> distinct_starts (ss_signals X) ->
  merge_consecutive_runs kone X = Ok Y -> room X.
Proof.
  intros W P N D H L ms Hnd Hin F. destruct (mcr_result kone X Y W D H) as [FY _].
  assert (WY : wf_set Y) by exact (merge_consecutive_wf kone QA_ord X Y W H).
  assert (HY : forall s, In s (ss_signals Y) -> forward s).
  { intros s Hs. destruct (Forall2_In_r' _ _ _ _ FY Hs) as ([x y] & Hxy & Hf). apply (fits_facts X x y s W P N Hxy Hf). }
  apply FOP_of_nth. intros i j m m' Hij Hi Hj.
  destruct (Forall2_nth_error_r _ _ _ _ _ F Hi) as (p & Lp & Fp). destruct (Forall2_nth_error_r _ _ _ _ _ F Hj) as (q & Lq & Fq).
  assert (Hpq : p <> q).
  { intros <-. assert (i = j); [|lia]. eapply NoDup_nth_error; [exact Hnd|eapply nth_error_Some_lt; eauto|congruence]. }
  assert (G : forall m p, In p (all_ranges X) -> fits X p m -> exists a s, nth_error (all_ranges X) a = Some p /\ nth_error (ss_signals Y) a = Some s /\
    s_start s = s_start m /\ last_time s = last_time m).
  { clear - FY. intros m [x y] Hp Hf. pose proof Hp as Hp'. apply In_nth_error in Hp as [a Ha]. destruct (Forall2_nth_error _ _ _ _ _ FY Ha) as (s & Hs & Hfs).
    exists a, s. split; [exact Ha|]. split; [exact Hs|].
    destruct Hf as [_ (r0 & b0 & Eb & E1 & _ & E2 & _ & E3 & _)]. destruct Hfs as [_ (r1 & b1 & Eb' & G1 & _ & G2 & _ & G3 & _)].
    rewrite Eb in Eb'. injection Eb' as <- <-. assert (E0 : s_start s = s_start m) by congruence. split; [exact E0|].
    unfold last_time, sample_time. rewrite E0, G3, E3, (E2 r0), (G2 r0) by (rewrite Eb; left; reflexivity). reflexivity. }
  destruct (G m p (Hin p (nth_error_In _ _ Lp)) Fp) as (a & s & A1 & A2 & A3 & A4).
  destruct (G m' q (Hin q (nth_error_In _ _ Lq)) Fq) as (a' & s' & B1 & B2 & B3 & B4).
  rewrite <- A3, <- A4, <- B3, <- B4. destruct (Nat.lt_total a a') as [La|[La|La]].
  - left. exact (apart_all QA_ord Y WY HY a a' s s' La A2 B2).
  - exfalso. apply Hpq. congruence.
  - right. exact (apart_all QA_ord Y WY HY a' a s' s La B2 A2).
Qed.

Theorem mcr_untagged (X : sigset) : regular X -> ss_signals X <> [] -> ~ top_tagged (ss_tags X) ->
  (forall r r', adjacent (ss_signals X) r r' -> ~ follows r r') -> merge_consecutive_runs kone X = Err KeyError.
Proof.
  intros R Hne Htop Hno. pose proof (rg_wf X R) as HX. rewrite mcr_eq by exact HX.
  destruct (nil_set (ss_tags X) (ws_tags X HX) (rg_plain X R)) as (t0 & Ht0 & H0 & Hd0 & Hn0).
  unfold set_new at 1. cbn [mapM bind concat]. rewrite H0. cbn [bind]. set (res0 := mkSet [] t0).
  assert (W0 : wf_set res0) by (apply (set_of_syncs_wf QA_ord _ [] res0) in H0; [exact H0|intros s []]).
  destruct (rest_ok X (regular_roomy X R)) as (idx & rest & Hsort & HI & H2 & Hr & Hdr & Htr).
  pose proof (proj2 (groups_none X) Hno) as Eg. rewrite Eg in *. cbn [foldM bind]. cbn [fold_left] in H2. rewrite H2. cbn [bind].
  assert (Hidx : idx <> []).
  { intros ->. apply (proj2 (HI 0)). unfold unmarked. rewrite Eg. split; [destruct (ss_signals X); [congruence|simpl; lia]|intros p []]. }
  specialize (Htr Hidx). assert (Wrest : wf_set rest) by exact (select_runs_wf kone QA_ord _ _ _ HX H2).
  assert (Ers : ss_signals rest <> []) by (intros E; rewrite E in Hr; inversion Hr; congruence).
  assert (Hpos : 0 < t_n (ss_tags X)).
  { destruct (ss_signals X) as [|s l] eqn:E; [congruence|]. assert (Hs : In s (ss_signals X)) by (rewrite E; left; reflexivity).
    rewrite <- (ws_chan X HX s Hs). pose proof (so_chan _ (ws_sync X HX s Hs)). destruct (s_data s); [congruence|simpl; lia]. }
  assert (Hun : forall k l, reads (ss_tags X) k l -> ~ In (t_n (ss_tags X) - 1) l).
  { intros k l Hk Hl. apply Htop. right. eauto. }
  assert (Hlt : t_n t0 < t_n (ss_tags X)).
  { destruct (tags_copy_infer_n _ (ws_tags X HX) (rg_plain X R)) as (t' & T1 & _ & _ & _ & T2). rewrite T1 in Ht0. injection Ht0 as <-.
    enough (t_n t' <= t_n (ss_tags X) - 1) by lia. apply T2. intros k l c Hk Hc.
    pose proof (tv_range _ (ws_tags X HX) _ _ _ Hk Hc). assert (c <> t_n (ss_tags X) - 1); [|lia].
    intros ->. apply (Hun k l Hk Hc). }
  assert (Hp0 : plain t0) by (intros k l Hk; apply (rg_plain X R k l); unfold reads in *; rewrite <- Hd0; exact Hk).
  unfold join, set_new. cbn [mapM]. rewrite (reorder_self kone res0 W0). cbn [bind].
  rewrite (reorder_untagged kone rest (ss_tags res0) (t_n (ss_tags X) - 1)); [reflexivity|apply Wrest|apply W0| | | |exact Ers| |].
  - rewrite Htr. apply tags_eqb_n; [exact (rg_plain X R)|exact Hp0|simpl; lia].
  - apply same_dict_keys. rewrite Hdr. symmetry. exact Hd0.
  - apply same_dict_aliases; [apply W0|apply Wrest|]. rewrite Hdr. exact Hd0.
  - rewrite nb_channels_wf; [rewrite Htr; lia|exact Wrest|]. rewrite Htr. apply plain_no; [exact (rg_plain X R)|simpl; auto 10].
  - intros k l Hk. apply Hun with (k := k). unfold reads in *. cbn [ss_tags res0] in Hk. rewrite <- Hd0. exact Hk.
Qed.

(** ** idempotence *)
Lemma glued_one (r s : sync) : sync_ok r -> sync_ok s -> glued [r] s -> s = r.
Proof.
  intros Hr Hs (r0 & b0 & E & H1 & H2 & H3 & H4 & _ & H5). injection E as <- <-.
  assert (Ed : s_data s = s_data r).
  { apply nth_error_ext. intros c. destruct (nth_error (s_data s) c) as [d|] eqn:D.
    - destruct (H5 c d D) as (ds & F & ->). inversion F as [|? e ? l F1 F2]; subst. inversion F2; subst. simpl. rewrite app_nil_r. congruence.
    - symmetry. apply nth_error_None. apply nth_error_None in D. lia. }
  pose proof (sync_size_unique s r Hs Hr Ed) as Esz. specialize (H3 r (or_introl eq_refl)).
  destruct s, r. simpl in *. subst. reflexivity.
Qed.

Lemma mcr_still (X Y : sigset) : regular X -> (forall r r', adjacent (ss_signals X) r r' -> ~ follows r r') ->
  merge_consecutive_runs kone X = Ok Y -> ss_signals Y = ss_signals X.
Proof.
  intros R Hno H. pose proof (rg_wf X R) as HX. destruct (mcr_result kone X Y HX (rg_distinct X R) H) as [F _].
  assert (Hok : forall s, In s (ss_signals Y) -> sync_ok s).
  { intros s Hs. destruct (Forall2_In_r' _ _ _ _ F Hs) as (xy & _ & Ho & _). exact Ho. }
  apply fits_blocks in F. pose proof (blocks_of X) as B. rewrite <- (bl_all _ _ B).
  assert (One : forall b, In b (block_list X) -> exists r, b = [r] /\ In r (ss_signals X)).
  { intros b Hb. pose proof (bl_nonempty _ _ B b Hb). destruct b as [|r [|r' b]]; [congruence| |exfalso].
    - exists r. split; [reflexivity|]. rewrite <- (bl_all _ _ B). apply in_concat. exists [r]. split; [exact Hb|left; reflexivity].
    - apply (Hno r r'); [|apply (bl_inside _ _ B _ r r' Hb); exists [], b; reflexivity].
      apply in_split in Hb as (B1 & B2 & EB). rewrite <- (bl_all _ _ B), EB, concat_app. cbn [concat].
      exists (concat B1), (b ++ concat B2). reflexivity. }
  clear B H. revert F One Hok. generalize (block_list X), (ss_signals Y). intros bs ss F. induction F as [|b s bs ss Hb _ IH]; intros One Hok; [reflexivity|].
  destruct (One b (or_introl eq_refl)) as (r & -> & Hr). cbn [concat app]. f_equal.
  - apply glued_one; [apply (ws_sync X HX), Hr|apply Hok; left; reflexivity|exact Hb].
  - apply IH; [intros; apply One; right; assumption|intros; apply Hok; right; assumption].
Qed.

Lemma glued_last (X : sigset) : regular X -> forall xy m, In xy (all_ranges X) -> fits X xy m ->
  exists r, nth_error (ss_signals X) (snd xy - 1) = Some r /\ last_time m = last_time r /\ s_rate m = s_rate r.
Proof.
  intros R [x y] m Hxy Hf. pose proof Hxy as M. apply all_ranges_iff in M. unfold maxrange, nb_runs in M. cbn [snd].
  destruct (nth_error (ss_signals X) (y - 1)) as [r|] eqn:E; [|apply nth_error_None in E; lia]. exists r. split; [reflexivity|].
  split; [apply (fits_last X x y m r R Hxy Hf E)|]. destruct Hf as [_ (r0 & b0 & _ & _ & _ & Hr & _)]. apply Hr. cbn [fst snd].
  apply nth_error_In with (n := y - 1 - x). rewrite sub_nth by lia. rewrite <- E. f_equal. lia.
Qed.

Theorem mcr_regular (X Y : sigset) : regular X -> merge_consecutive_runs kone X = Ok Y ->
  regular Y /\ forall r r', adjacent (ss_signals Y) r r' -> ~ follows r r'.
Proof.
  intros R H. pose proof (rg_wf X R) as HX. destruct (mcr_result kone X Y HX (rg_distinct X R) H) as [F Ed].
  assert (WY : wf_set Y) by (eapply (merge_consecutive_wf kone QA_ord); eauto).
  assert (Hno : forall r r', adjacent (ss_signals Y) r r' -> ~ follows r r').
  { intros m m' Hadj Hf. apply adjacent_nth in Hadj as (i & H1 & H2).
    destruct (Forall2_nth_error_r _ _ _ _ _ F H1) as (p & Lp & Fp). destruct (Forall2_nth_error_r _ _ _ _ _ F H2) as (q & Lq & Fq).
    destruct (glued_last X R p m) as (r & Hr & El & Er); [eapply nth_error_In; eauto|exact Fp|].
    assert (Hpq : snd p = fst q).
    { assert (A : adjacent (all_ranges X) p q) by (apply adjacent_nth; eauto). destruct A as (R1 & R2 & E). exact (ranges_adj _ _ _ _ _ _ _ E). }
    assert (Ip : In (fst p, snd p) (all_ranges X)) by (destruct p; eapply nth_error_In; eauto).
    assert (Iq : In (fst q, snd q) (all_ranges X)) by (destruct q; eapply nth_error_In; eauto).
    apply all_ranges_iff in Ip, Iq. unfold maxrange, nb_runs in Ip, Iq.
    destruct (nth_error (ss_signals X) (fst q)) as [r'|] eqn:E'; [|apply nth_error_None in E'; lia].
    pose proof (fits_start X q m' r' Fq ltac:(lia) E') as Es.
    assert (Er' : s_rate m' = s_rate r').
    { destruct Fq as [_ (r0 & b0 & _ & _ & _ & Hr0 & _)]. apply Hr0. apply nth_error_In with (n := 0). rewrite sub_nth by lia. rewrite Nat.add_0_r. exact E'. }
    assert (Fr : follows r r').
    { unfold follows, tolerance, gap, period in *. rewrite El, Er, Es, Er' in Hf. exact Hf. }
    assert (C : conn (ss_signals X) (snd p - 1) = true).
    { apply conn_follows. exists r, r'. split; [exact Hr|]. split; [|exact Fr]. rewrite <- E', <- Hpq. f_equal. lia. }
    destruct Ip as (_ & _ & _ & _ & [Ip|Ip]); [lia|congruence]. }
  split; [|exact Hno].
  assert (Facts : forall m, In m (ss_signals Y) -> pos (s_rate m) /\ 0 < s_size m).
  { intros m Hm. destruct (Forall2_In_r' _ _ _ _ F Hm) as ([x y] & Hxy & Hf). destruct (fits_facts X x y m (rg_wf X R) (rg_pos X R) (rg_full X R) Hxy Hf) as (_ & ? & ? & _). auto. }
  split.
  - exact WY.
  - intros k l Hk. apply (rg_plain X R k l). unfold reads in *. rewrite <- Ed. exact Hk.
  - intros s Hs. apply Facts, Hs.
  - intros s Hs. apply Facts, Hs.
  - apply (fits_distinct X (all_ranges X) (ss_signals Y) (rg_distinct X R) (all_ranges_NoDup X) (incl_refl _) F).
  - intros r r' Hadj Hf. exfalso. exact (Hno r r' Hadj Hf).
Qed.

Theorem mcr_idempotent (X Y : sigset) : regular X -> top_tagged (ss_tags X) -> ss_signals X <> [] ->
  merge_consecutive_runs kone X = Ok Y -> merge_consecutive_runs kone Y = Ok Y.
Proof.
  intros R Htop Hne H. destruct (mcr_regular X Y R H) as [RY Hno].
  destruct (mcr_ok X R (or_intror (or_introl Htop))) as (Y' & HY' & Ht). rewrite H in HY'. injection HY' as <-. specialize (Ht Hne).
  destruct (mcr_ok Y RY) as (Z & HZ & HtZ); [rewrite Ht; auto|]. rewrite HZ. f_equal.
  pose proof (mcr_still Y Z RY Hno HZ) as Es.
  assert (HneY : ss_signals Y <> []).
  { intros E. destruct (mcr_result kone X Y (rg_wf X R) (rg_distinct X R) H) as [F _]. rewrite E in F. inversion F as [E'|]. 
    unfold all_ranges in E'. destruct (ranges_hd (conn (ss_signals X)) (nb_runs X) 0) as (y & rs & Er); [unfold nb_runs; destruct (ss_signals X); [congruence|simpl; lia]|]. rewrite Er in E'. discriminate. }
  specialize (HtZ HneY). destruct Z as [zs zt], Y as [ys yt]. simpl in *. congruence.
Qed.
End ConsecOk.
