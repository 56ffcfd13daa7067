(** C08, C10, C12, C31: when selections, joins and windows succeed, and what
    they raise otherwise. *)
From Coq Require Import QArith Qcanon.
From Verif Require Import Base BaseLemmas SliceLemmas Arith OrdLaws QcLemmas TagsModel SpecTags TagsProofs
  SyncModel SetModel SpecSet SetProofs SpecSelect TrackProofs SelectProofs SelectMore SpecOutcome JoinWhen
  SpecTime ExtractProofs ExtractSync InvModel SpecInv InvMore Samples PropSelect PropTime OutcomeSamples.
Open Scope nat_scope.
Local Open Scope string_scope.

(** C08: a selection succeeds exactly when its identifiers are known and, in a
    set with runs, choose a channel; otherwise ValueError or AssertionError. *)
Theorem C08_outcome :
  forall (A : Arith) (L : OrdLaws A) (V K : Type) (kone : K) (X : @sigset A V K) c,
  reach kone X -> plain (ss_tags X) ->
  ((exists Y, select_channels kone X c = Ok Y) <-> sel_known X c /\ (ss_signals X = [] \/ exists i, chosen X c i)) /\
  (sel_known X c -> ss_signals X <> [] -> (forall i, ~ chosen X c i) -> select_channels kone X c = Err AssertionError) /\
  (forall sl, c = SelSlice sl -> sl_step sl = Some 0%Z -> select_channels kone X c = Err ValueError).
Proof.
  intros A L V K kone X c HX Hp. apply (reach_wf kone L) in HX.
  split; [apply select_channels_iff; assumption|]. split; [apply select_channels_nothing; assumption|].
  intros sl ->. apply select_zero_step.
Qed.
Print Assumptions C08_outcome.

Example C08_outcome_example :
  reach tt setA /\ plain (ss_tags setA) /\ sel_known setA (SelSeq []) /\ ss_signals setA <> [] /\
  (forall i, ~ chosen setA (SelSeq []) i) /\
  err (select_channels tt setA (SelSeq [])) = Some AssertionError /\
  err (select_channels tt setA (SelSlice (mkSlice (Some 1%Z) (Some 1%Z) None))) = Some AssertionError /\
  err (select_channels tt setA (SelSlice (mkSlice None None (Some 0%Z)))) = Some ValueError.
Proof.
  split; [exact setA_reach|]. split; [exact setA_plain|]. split; [intros c []|].
  split; [vm_compute; discriminate|]. split; [intros i (c & [] & _)|]. vm_compute. auto.
Qed.

(** C10: when join succeeds. *)
Theorem C10_join_when :
  forall (A : Arith) (L : OrdLaws A) (V K : Type) (kone : K) (X Y : @sigset A V K),
  reach kone X -> reach kone Y -> plain (ss_tags X) -> plain (ss_tags Y) ->
  ss_signals X <> [] -> ss_signals Y <> [] ->
  (forall s, In s (ss_signals X ++ ss_signals Y)%list -> forward s) -> distinct_starts (ss_signals X ++ ss_signals Y)%list ->
  ((exists Z, join kone X [ASet Y] = Ok Z) <->
   alignable (ss_tags X) (ss_tags Y) /\ disjoint_runs (ss_signals X ++ ss_signals Y)%list).
Proof.
  intros A L V K kone X Y HX HY. apply (join_when kone L); apply (reach_wf kone L); assumption.
Qed.
Print Assumptions C10_join_when.

(** C10: what join raises: a channel to be split, a channel without name, too
    few channels, overlapping runs. *)
Theorem C10_join_raises :
  forall (A : Arith) (L : OrdLaws A) (V K : Type) (kone : K) (X Y : @sigset A V K),
  reach kone X -> reach kone Y -> plain (ss_tags X) -> plain (ss_tags Y) ->
  ss_signals Y <> [] -> same_keys (ss_tags X) (ss_tags Y) ->
  (~ tags_same (ss_tags X) (ss_tags Y) -> ~ aliases_kept (ss_tags X) (ss_tags Y) ->
     join kone X [ASet Y] = Err AssertionError) /\
  (forall i, ~ tags_same (ss_tags X) (ss_tags Y) -> aliases_kept (ss_tags X) (ss_tags Y) ->
     i < t_n (ss_tags Y) -> (forall k l, reads (ss_tags X) k l -> ~ In i l) -> join kone X [ASet Y] = Err KeyError) /\
  (aliases_kept (ss_tags X) (ss_tags Y) -> tagged_below (ss_tags X) (t_n (ss_tags Y)) ->
     t_n (ss_tags Y) < t_n (ss_tags X) -> join kone X [ASet Y] = Err ValueError) /\
  (alignable (ss_tags X) (ss_tags Y) -> (forall s, In s (ss_signals X ++ ss_signals Y)%list -> forward s) ->
     distinct_starts (ss_signals X ++ ss_signals Y)%list -> ~ disjoint_runs (ss_signals X ++ ss_signals Y)%list ->
     join kone X [ASet Y] = Err AssertionError).
Proof.
  intros A L V K kone X Y HX HY. apply (join_raises kone L); apply (reach_wf kone L); assumption.
Qed.
Print Assumptions C10_join_raises.

(** C12: any window at all, and C31: a tag named "get". *)
Theorem C12_any_window :
  forall (V K : Type) (kone : K) (s : sync QA V K) (a b : Qc),
  reach_sync kone s -> (Q2Qc 0 < s_rate s)%Qc -> 0 < s_size s ->
  exists s' i n, sync_extract_t kone s a b false = Ok s' /\ channelwise (piece i n) s s' /\ i + n <= s_size s /\
    forall j, j < s_size s ->
      (i <= j < i + n <->
       ((a <= sample_time s (Z.of_nat j))%Qc \/ j = s_size s - 1) /\ ((sample_time s (Z.of_nat j) <= b)%Qc \/ j = 0)).
Proof.
  intros V K kone s a b Hs Hr Hn. apply (proj1 (reach_all kone QA_ord)) in Hs.
  destruct (extract_t_bounds kone s a b Hs Hr Hn) as (i & n & H & Hin & _ & Hj).
  exists (cut s i n), i, n. split; [exact H|]. split; [apply cut_piece, Hr|auto].
Qed.
Print Assumptions C12_any_window.

Example C12_any_window_example :
  reach_sync tt runX /\ (Q2Qc 0 < s_rate runX)%Qc /\ 0 < s_size runX /\
  viewr (sync_extract_t tt runX (q 40) (q 10) false) = Ok (29 # 1, 1 # 1, [[]; []])%Q.
Proof.
  destruct C12_example as (H1 & H2 & H3 & _). split; [exact H1|]. split; [exact H2|]. split; [exact H3|]. vm_compute. reflexivity.
Qed.

Theorem C31_get_tag :
  forall (A : Arith) (L : OrdLaws A) (V K : Type) (kone : K) (inv : list (@sigset A V K)) keys X l,
  (forall X, In X inv -> reach kone X) -> (forall X, In X inv -> plain (ss_tags X)) ->
  In X inv -> reads (ss_tags X) "get" l -> keys <> [] -> inv_select_channels kone inv keys = Err TypeError.
Proof.
  intros A L V K kone inv keys X l H Hp. apply (inv_select_get kone); [|exact Hp].
  intros Y HY. apply (reach_wf kone L), H, HY.
Qed.
Print Assumptions C31_get_tag.

Example C31_get_tag_example :
  reach tt get1 /\ plain (ss_tags get1) /\ reads (ss_tags get1) "get" [0] /\
  err (inv_select_channels tt [setA; get1] ["E"]) = Some TypeError /\ err (inv_filter tt [setA; get1] ["E"]) = Some TypeError.
Proof.
  split; [exact get1_reach|]. split; [apply plain_dec; vm_compute; reflexivity|].
  split; [left; vm_compute; reflexivity|]. vm_compute. auto.
Qed.

(** the four cases of C10_join_raises *)
Example C10_join_raises_example :
  (same_keys (ss_tags alias2) (ss_tags names2) /\ ~ tags_same (ss_tags alias2) (ss_tags names2) /\
   ~ aliases_kept (ss_tags alias2) (ss_tags names2) /\ err (join tt alias2 [ASet names2]) = Some AssertionError) /\
  (same_keys (ss_tags first2) (ss_tags second2) /\ ~ tags_same (ss_tags first2) (ss_tags second2) /\
   aliases_kept (ss_tags first2) (ss_tags second2) /\ 1 < t_n (ss_tags second2) /\
   (forall k l, reads (ss_tags first2) k l -> ~ In 1 l) /\ err (join tt first2 [ASet second2]) = Some KeyError) /\
  (same_keys (ss_tags first2) (ss_tags only1) /\ aliases_kept (ss_tags first2) (ss_tags only1) /\
   tagged_below (ss_tags first2) (t_n (ss_tags only1)) /\ t_n (ss_tags only1) < t_n (ss_tags first2) /\
   err (join tt first2 [ASet only1]) = Some ValueError) /\
  (alignable (ss_tags names2) (ss_tags turned2) /\
   (forall s, In s (ss_signals names2 ++ ss_signals turned2)%list -> forward s) /\
   distinct_starts (ss_signals names2 ++ ss_signals turned2)%list /\
   ~ disjoint_runs (ss_signals names2 ++ ss_signals turned2)%list /\
   err (join tt names2 [ASet turned2]) = Some AssertionError).
Proof.
  assert (V : forall X : xset, reach tt X -> tags_valid (ss_tags X)) by (intros X HX; apply (ws_tags _ (reach_wf tt QA_ord _ HX))).
  assert (R : forall (X : xset) k l, dget k (t_dict (ss_tags X)) = Some l -> reads (ss_tags X) k l) by (intros X k l; apply dget_In).
  split; [|split; [|split]].
  - split; [apply same_keys_dec; vm_compute; reflexivity|]. split; [|split; [|vm_compute; reflexivity]].
    + intros [_ H]. destruct (H "H" [0]) as [G _].
      assert (F : reads (ss_tags names2) "H" [0]) by (apply G, R; vm_compute; reflexivity).
      apply (reads_dget _ _ _ (V _ names2_reach)) in F. vm_compute in F. discriminate.
    + intros H. specialize (H "E" [0] 0 "H" [0] 0 0 [0] [1]).
      assert (F : nth_error [0] 0 = nth_error [1] 0) by (apply H; try (apply R; vm_compute; reflexivity); reflexivity).
      discriminate F.
  - split; [apply same_keys_dec; vm_compute; reflexivity|]. split.
    + intros [_ H]. destruct (H "E" [0]) as [G _].
      assert (F : reads (ss_tags second2) "E" [0]) by (apply G, R; vm_compute; reflexivity).
      apply (reads_dget _ _ _ (V _ second2_reach)) in F. vm_compute in F. discriminate.
    + split; [apply (aliases_dec _ _ (V _ first2_reach) (V _ second2_reach)); vm_compute; reflexivity|].
      split; [vm_compute; auto|]. split; [|vm_compute; reflexivity].
      intros k l H. assert (E : t_dict (ss_tags first2) = [("E", [0])]) by (vm_compute; reflexivity).
      unfold reads in H. rewrite E in H. destruct H as [H|[]]. injection H as <- <-. intros [H|[]]. discriminate.
  - split; [apply same_keys_dec; vm_compute; reflexivity|].
    split; [apply (aliases_dec _ _ (V _ first2_reach) (V _ only1_reach)); vm_compute; reflexivity|].
    split; [|split; [vm_compute; auto|vm_compute; reflexivity]].
    assert (E : t_n (ss_tags only1) = 1) by (vm_compute; reflexivity). rewrite E. intros i Hi. exists "E", [0].
    split; [apply R; vm_compute; reflexivity|]. left. lia.
  - split; [split; [apply same_keys_dec; vm_compute; reflexivity|split; [vm_compute; reflexivity|right]]|].
    { split; [apply all_tagged_dec; vm_compute; reflexivity|].
      apply (aliases_dec _ _ (V _ names2_reach) (V _ turned2_reach)); vm_compute; reflexivity. }
    split; [apply forward_dec; vm_compute; reflexivity|]. split; [apply distinct_dec; vm_compute; reflexivity|].
    split; [|vm_compute; reflexivity].
    intros H. assert (G : exists a b : xsync, (ss_signals names2 ++ ss_signals turned2)%list = [a; b] /\
      nleb QA (last_time a) (s_start b) = false /\ nleb QA (last_time b) (s_start a) = false)
      by (eexists; eexists; split; [vm_compute; reflexivity|split; vm_compute; reflexivity]).
    destruct G as (a & b & E & F1 & F2). unfold disjoint_runs in H. rewrite E in H. inversion H as [|s l HF _ E']. subst.
    rewrite Forall_forall in HF. destruct (HF b (or_introl eq_refl)) as [F|F]; congruence.
Qed.

Example C10_join_when_example :
  reach tt setA /\ reach tt setB /\ plain (ss_tags setA) /\ plain (ss_tags setB) /\
  ss_signals setA <> [] /\ ss_signals setB <> [] /\ alignable (ss_tags setA) (ss_tags setB) /\
  reach tt first2 /\ alignable (ss_tags first2) (ss_tags first2) /\ ~ all_tagged (ss_tags first2).
Proof.
  destruct C10_succeeds_example as (H1 & H2 & H3 & H4 & _).
  split; [exact setA_reach|]. split; [exact setB_reach|]. split; [exact setA_plain|]. split; [exact setB_plain|].
  split; [vm_compute; discriminate|]. split; [vm_compute; discriminate|].
  split; [split; [apply same_keys_sym, H1|split; [exact H2|right; auto]]|].
  split; [exact first2_reach|].
  split; [split; [intros k n; reflexivity|split; [reflexivity|left; split; [reflexivity|intros k l; reflexivity]]]|].
  intros H. destruct (H 1) as (k & l & Hr & Hi); [vm_compute; auto|].
  assert (E : t_dict (ss_tags first2) = [("E", [0])]) by (vm_compute; reflexivity).
  unfold reads in Hr. rewrite E in Hr. destruct Hr as [Hr|[]]. injection Hr as <- <-. destruct Hi as [Hi|[]]. discriminate.
Qed.
