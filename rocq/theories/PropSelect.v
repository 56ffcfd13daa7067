(** C07-C11: selections and joins. *)
From Coq Require Import QArith Qcanon.
From Verif Require Import Base BaseLemmas SliceLemmas Arith OrdLaws FloatArith TagsModel SpecTags TagsProofs
  SyncModel SetModel SpecSet SetProofs SpecSelect TrackProofs SelectProofs OrderProofs JoinProofs JoinOk Samples.
Open Scope Z_scope.
Local Open Scope string_scope.

(** C07: a selection keeps the runs and the data behind every tag it keeps. *)
Theorem C07_select_channels :
  forall (A : Arith) (L : OrdLaws A) (V K : Type) (kone : K) (X : @sigset A V K) c Y,
  reach kone X -> plain (ss_tags X) -> select_channels kone X c = Ok Y ->
  exists sel, StronglySorted lt sel /\ (forall i, In i sel <-> chosen X c i) /\
    Forall2 (run_selected sel) (ss_signals X) (ss_signals Y) /\
    (exists keep, map fst (t_dict (ss_tags Y)) = filter keep (map fst (t_dict (ss_tags X)))) /\
    (forall k n, tag_size Y k n <->
       exists l, reads (ss_tags X) k l /\ length l = n /\ forall i, In i l -> chosen X c i) /\
    (forall k n p gs, tag_size Y k n -> (tracks Y k p gs <-> tracks X k p gs)).
Proof.
  intros A L V K kone X c Y HX. apply (select_channels_spec kone). apply (reach_wf kone L), HX.
Qed.
Print Assumptions C07_select_channels.

Lemma plain_dec t : forallb (fun kv => negb (memb String.eqb (fst kv) special_names)) (t_dict t) = true -> plain t.
Proof.
  intros H k l Hl Hk. rewrite forallb_forall in H. specialize (H _ Hl). simpl fst in H.
  rewrite (proj2 (memb_In _ string_eqb_iff _ _) Hk) in H. discriminate.
Qed.
Lemma setA_plain : plain (ss_tags setA). Proof. apply plain_dec. vm_compute. reflexivity. Qed.
Lemma setB_plain : plain (ss_tags setB). Proof. apply plain_dec. vm_compute. reflexivity. Qed.

Example C07_example : reach tt setA /\ plain (ss_tags setA) /\
  viewd (select_channels tt setA (SelSeq [CInt 1; CName "H"])) =
  Ok (times setA, [("H", [0%nat])], [[chan_data 1 10]; [chan_data 1 10]; [chan_data 1 8]]).
Proof. split; [exact setA_reach|]. split; [exact setA_plain|]. vm_compute. reflexivity. Qed.

(** C08: unknown identifiers, success, idempotence. *)
Theorem C08_unknown_identifier :
  forall (A : Arith) (L : OrdLaws A) (V K : Type) (kone : K) (X : @sigset A V K),
  reach kone X -> plain (ss_tags X) ->
  (forall c, unknown X c -> select_channels kone X (SelOne c) = Err ValueError) /\
  (forall l c, In c l -> unknown X c -> select_channels kone X (SelSeq l) = Err ValueError).
Proof.
  intros A L V K kone X HX Hp. apply (reach_wf kone L) in HX. split.
  - intros c. apply select_unknown_one_error; assumption.
  - intros l c. apply select_unknown_error; assumption.
Qed.
Print Assumptions C08_unknown_identifier.

Theorem C08_known_identifiers_succeed :
  forall (A : Arith) (L : OrdLaws A) (V K : Type) (kone : K) (X : @sigset A V K) c,
  reach kone X -> plain (ss_tags X) -> sel_known X c ->
  (ss_signals X = [] \/ exists i, chosen X c i) ->
  exists Y, select_channels kone X c = Ok Y.
Proof. intros A L V K kone X c HX. apply (select_channels_ok kone). apply (reach_wf kone L), HX. Qed.
Print Assumptions C08_known_identifiers_succeed.

Theorem C08_select_all_is_identity :
  forall (A : Arith) (L : OrdLaws A) (V K : Type) (kone : K) (X : @sigset A V K),
  reach kone X -> plain (ss_tags X) -> ss_signals X <> [] ->
  select_channels kone X (SelSlice full_slice) = Ok X.
Proof. intros A L V K kone X HX. apply (select_all_id kone). apply (reach_wf kone L), HX. Qed.
Print Assumptions C08_select_all_is_identity.

Example C08_example :
  unknown setA (CName "Z") /\ unknown setA (CInt (-1)) /\ sel_known setA (SelSeq [CName "EH"; CInt 0]) /\
  chosen setA (SelSeq [CName "EH"; CInt 0]) 1 /\ ss_signals setA <> [] /\
  err (select_channels tt setA (SelSeq [CName "E"; CInt (-1)])) = Some ValueError.
Proof.
  assert (E : ss_tags setA = mkTags 2 [("E", [0%nat]); ("H", [1%nat]); ("EH", [0%nat; 1%nat])]) by (vm_compute; reflexivity).
  split; [|split; [|split; [|split; [|split]]]].
  - cbv [unknown reads]. rewrite E. simpl. intros l [H|[H|[H|[]]]]; congruence.
  - cbv [unknown]. lia.
  - cbv [sel_known]. intros c [<-|[<-|[]]]; cbv [unknown reads]; rewrite E; simpl t_n; simpl t_dict; [|lia].
    intros H. apply (H [0%nat; 1%nat]). simpl. auto.
  - exists (CName "EH"). cbv [names_chan reads]. rewrite E. split; [simpl; auto|]. exists [0%nat; 1%nat]. simpl. auto.
  - intros H. apply (f_equal (@length _)) in H. vm_compute in H. discriminate.
  - vm_compute. reflexivity.
Qed.

(** C09: selection of runs is indexing. *)
Theorem C09_select_runs :
  forall (A : Arith) (L : OrdLaws A) (V K : Type) (kone : K) (X : @sigset A V K) r Y,
  reach kone X -> select_runs kone X r = Ok Y ->
  exists idx runs, picks (nb_runs X) r idx /\
    Forall2 (fun i s => nth_error (ss_signals X) i = Some s) idx runs /\
    Permutation runs (ss_signals Y) /\
    (StronglySorted lt idx -> ss_signals Y = runs) /\
    t_dict (ss_tags Y) = t_dict (ss_tags X).
Proof. intros A L V K kone X r Y HX. apply (select_runs_spec kone). apply (reach_wf kone L), HX. Qed.
Print Assumptions C09_select_runs.

Theorem C09_out_of_range :
  forall (A : Arith) (V K : Type) (kone : K) (X : @sigset A V K) r,
  out_of_range (nb_runs X) r -> select_runs kone X r = Err IndexError.
Proof. intros A V K kone X r. apply select_runs_out_of_range. Qed.
Print Assumptions C09_out_of_range.

(** success, and the order: without repetition the runs come in time order *)
Theorem C09_select_runs_succeeds :
  forall (A : Arith) (L : OrdLaws A) (V K : Type) (kone : K) (X : @sigset A V K) r idx,
  reach kone X -> plain (ss_tags X) -> picks (nb_runs X) r idx -> NoDup idx ->
  (forall s, In s (ss_signals X) -> forward s) ->
  (StronglySorted lt idx \/ forall s, In s (ss_signals X) -> nltb A (s_start s) (last_time s) = true) ->
  exists Y order, select_runs kone X r = Ok Y /\ Permutation idx order /\ StronglySorted lt order /\
    Forall2 (fun i s => nth_error (ss_signals X) i = Some s) order (ss_signals Y) /\
    t_dict (ss_tags Y) = t_dict (ss_tags X) /\ (idx <> [] -> ss_tags Y = ss_tags X).
Proof.
  intros A L V K kone X r idx HX Hp Hpk Hnd Hf Hor. apply (reach_wf kone L) in HX.
  destruct (select_runs_ok kone L X r idx HX Hp Hpk Hnd Hf Hor) as (Y & H1 & H2 & H3 & H4).
  exists Y, (sel_of idx). split; [exact H1|]. split; [|split; [apply sel_of_sorted|auto]].
  apply NoDup_Permutation; [exact Hnd|apply sel_of_NoDup|]. intros i. symmetry. apply sel_of_In.
Qed.
Print Assumptions C09_select_runs_succeeds.

(** a repeated run overlaps itself *)
Theorem C09_repeated_run :
  forall (A : Arith) (L : OrdLaws A) (V K : Type) (kone : K) (X : @sigset A V K) r idx s i a b,
  reach kone X -> picks (nb_runs X) r idx -> a <> b ->
  nth_error idx a = Some i -> nth_error idx b = Some i -> nth_error (ss_signals X) i = Some s ->
  (forall s, In s (ss_signals X) -> nltb A (s_start s) (last_time s) = true) ->
  select_runs kone X r = Err AssertionError.
Proof.
  intros A L V K kone X r idx s i a b HX. apply (select_runs_twice kone L). apply (reach_wf kone L), HX.
Qed.
Print Assumptions C09_repeated_run.

Example C09_example :
  picks (nb_runs setA) (RunIdx [2; -3]) [2%nat; 0%nat] /\ picks (nb_runs setA) (RunMask [true; false; true]) [0%nat; 2%nat] /\
  picks (nb_runs setA) (RunSlice (mkSlice None None (Some (-1)))) [2%nat; 1%nat; 0%nat] /\
  (forall s, In s (ss_signals setA) -> nltb QA (s_start s) (last_time s) = true) /\
  view (select_runs tt setA (RunIdx [2; -3])) =
    Ok ([((0#1)%Q, (1#1)%Q, 10%nat); ((50#1)%Q, (1#2)%Q, 8%nat)], tagl setA) /\
  err (select_runs tt setA (RunIdx [3])) = Some IndexError /\
  err (select_runs tt setA (RunIdx [1; -2])) = Some AssertionError.
Proof.
  replace (nb_runs setA) with 3%nat by (vm_compute; reflexivity).
  split; [|split; [|split; [|split; [|repeat split; vm_compute; reflexivity]]]].
  - repeat constructor; simpl; lia.
  - split; [reflexivity|]. split; [repeat constructor|].
    intros i. destruct i as [|[|[|i]]]; simpl; split; intros H; try (destruct H as [H|[H|[]]]); try discriminate; auto.
    destruct i; discriminate.
  - vm_compute. reflexivity.
  - apply (proj1 (forallb_forall (fun s => nltb QA (s_start s) (last_time s)) (ss_signals setA))). vm_compute. reflexivity.
Qed.

(** C10: a joined set holds exactly the runs of its operands, each read through
    its own tags, in time order (its runs are sorted by C04). *)
Theorem C10_join_aligns :
  forall (A : Arith) (L : OrdLaws A) (V K : Type) (kone : K) (X : @sigset A V K) args Z,
  reach kone X -> (forall a, In a args -> reach_arg kone a) -> join kone X args = Ok Z ->
  holds (set_runs X ++ concat (map (arg_runs (ss_tags Z)) args)) Z /\
  (forall Y : @sigset A V K, In (ASet Y) (ASet X :: args) -> same_keys (ss_tags Y) (ss_tags Z)).
Proof.
  intros A L V K kone X args Z HX Ha. apply (join_holds kone L).
  - apply (reach_wf kone L), HX.
  - intros Y HY. apply Ha in HY. inversion HY; subst. apply (reach_wf kone L). assumption.
Qed.
Print Assumptions C10_join_aligns.

Theorem C10_join_different_tags_raises :
  forall (A : Arith) (L : OrdLaws A) (V K : Type) (kone : K) (X Y : @sigset A V K),
  reach kone X -> reach kone Y -> ~ same_keys (ss_tags X) (ss_tags Y) ->
  join kone X [ASet Y] = Err AssertionError.
Proof.
  intros A L V K kone X Y HX HY. apply (join_differs kone); apply (reach_wf kone L); assumption.
Qed.
Print Assumptions C10_join_different_tags_raises.

Theorem C10_join_succeeds :
  forall (A : Arith) (L : OrdLaws A) (V K : Type) (kone : K) (X Y : @sigset A V K),
  reach kone X -> reach kone Y -> plain (ss_tags X) -> plain (ss_tags Y) ->
  ss_signals X <> [] -> ss_signals Y <> [] ->
  same_keys (ss_tags Y) (ss_tags X) -> t_n (ss_tags X) = t_n (ss_tags Y) ->
  all_tagged (ss_tags X) -> aliases_kept (ss_tags X) (ss_tags Y) ->
  (forall s, In s (ss_signals X ++ ss_signals Y)%list -> forward s) ->
  distinct_starts (ss_signals X ++ ss_signals Y)%list -> disjoint_runs (ss_signals X ++ ss_signals Y)%list ->
  exists Z, join kone X [ASet Y] = Ok Z.
Proof.
  intros A L V K kone X Y HX HY. apply (join_ok kone L); apply (reach_wf kone L); assumption.
Qed.
Print Assumptions C10_join_succeeds.

Example C10_example :
  viewd (join tt setB [ASet setA]) =
  Ok ([((0#1)%Q, (1#1)%Q, 10%nat); ((20#1)%Q, (1#1)%Q, 10%nat); ((50#1)%Q, (1#2)%Q, 8%nat); ((100#1)%Q, (1#1)%Q, 5%nat)],
      [("EH", [1%nat; 0%nat]); ("H", [0%nat]); ("E", [1%nat])],
      [[chan_data 1 10; chan_data 0 10]; [chan_data 1 10; chan_data 0 10]; [chan_data 1 8; chan_data 0 8];
       [chan_data 0 5; chan_data 1 5]]).
Proof. vm_compute. reflexivity. Qed.

(** the hypotheses of C10_join_succeeds hold for setA and setB *)
Definition option_eq_dec {B} (d : forall x y : B, {x = y} + {x <> y}) : forall x y : option B, {x = y} + {x <> y}.
Proof. decide equality. Defined.
Definition aliases_b (t t' : tags) : bool :=
  forallb (fun kl => forallb (fun kl2 =>
    match dget (fst kl) (t_dict t'), dget (fst kl2) (t_dict t') with
    | Some m, Some m2 =>
        forallb (fun p => forallb (fun p2 =>
          if option_eq_dec Nat.eq_dec (nth_error (snd kl) p) (nth_error (snd kl2) p2)
          then if option_eq_dec Nat.eq_dec (nth_error m p) (nth_error m2 p2) then true else false else true)
          (seq 0 (length (snd kl2)))) (seq 0 (length (snd kl)))
    | _, _ => false end) (t_dict t)) (t_dict t).
Lemma aliases_dec t t' : tags_valid t -> tags_valid t' -> aliases_b t t' = true -> aliases_kept t t'.
Proof.
  intros Hv Hv' H k l p k2 l2 p2 c m m2 Hl Hl2 Hc Hc2 Hm Hm2. unfold aliases_b in H.
  rewrite forallb_forall in H. specialize (H _ Hl). rewrite forallb_forall in H. specialize (H _ Hl2). simpl in H.
  rewrite (proj1 (reads_dget _ _ _ Hv') Hm), (proj1 (reads_dget _ _ _ Hv') Hm2) in H.
  rewrite forallb_forall in H. specialize (H p). rewrite forallb_forall in H.
  assert (Hp : In p (seq 0 (length l))) by (apply in_seq; apply nth_error_Some_lt in Hc; lia).
  assert (Hp2 : In p2 (seq 0 (length l2))) by (apply in_seq; apply nth_error_Some_lt in Hc2; lia).
  specialize (H Hp p2 Hp2). rewrite Hc, Hc2 in H. destruct (option_eq_dec Nat.eq_dec (Some c) (Some c)); [|congruence].
  destruct (option_eq_dec Nat.eq_dec (nth_error m p) (nth_error m2 p2)); [assumption|discriminate].
Qed.

Definition lensb (t : tags) : dict nat := map (fun kl => (fst kl, length (snd kl))) (t_dict t).
Lemma same_keys_dec t t' :
  forallb (fun kn => match dget (fst kn) (lensb t') with Some n => (n =? snd kn)%nat | None => false end) (lensb t) &&
  forallb (fun kn => match dget (fst kn) (lensb t) with Some n => (n =? snd kn)%nat | None => false end) (lensb t') = true ->
  same_keys t t'.
Proof.
  assert (Dir : forall t t', forallb (fun kn => match dget (fst kn) (lensb t') with Some n => (n =? snd kn)%nat | None => false end) (lensb t) = true ->
            forall k l, reads t k l -> exists l', reads t' k l' /\ length l' = length l).
  { clear. intros t t' H k l Hl. rewrite forallb_forall in H. specialize (H (k, length l)). simpl in H.
    assert (Hin : In (k, length l) (lensb t)) by (apply in_map_iff; exists (k, l); auto). specialize (H Hin).
    destruct (dget k (lensb t')) as [n|] eqn:E; [|discriminate]. apply Nat.eqb_eq in H. subst n.
    apply dget_In in E. apply in_map_iff in E as ([k1 l1] & E & H1). injection E as -> E. exists l1. auto. }
  intros H. apply andb_true_iff in H as [H1 H2]. intros k n. split; intros (l & Hl & <-); eapply Dir; eauto.
Qed.

Lemma all_tagged_dec t : forallb (fun i => existsb (fun kl => memb Nat.eqb i (snd kl)) (t_dict t)) (seq 0 (t_n t)) = true -> all_tagged t.
Proof.
  intros H i Hi. rewrite forallb_forall in H. specialize (H i). rewrite existsb_exists in H.
  destruct H as ([k l] & Hin & Hm); [apply in_seq; lia|]. exists k, l. split; [exact Hin|]. apply (memb_In _ nat_eqb_iff), Hm.
Qed.

Example C10_succeeds_example :
  same_keys (ss_tags setB) (ss_tags setA) /\ t_n (ss_tags setA) = t_n (ss_tags setB) /\
  all_tagged (ss_tags setA) /\ aliases_kept (ss_tags setA) (ss_tags setB) /\
  (forall s, In s (ss_signals setA ++ ss_signals setB)%list -> forward s) /\
  distinct_starts (ss_signals setA ++ ss_signals setB)%list /\ disjoint_runs (ss_signals setA ++ ss_signals setB)%list.
Proof.
  pose proof (ws_tags _ (reach_wf tt QA_ord _ setA_reach)) as HA. pose proof (ws_tags _ (reach_wf tt QA_ord _ setB_reach)) as HB.
  split; [apply same_keys_dec; vm_compute; reflexivity|].
  split; [vm_compute; reflexivity|]. split; [apply all_tagged_dec; vm_compute; reflexivity|].
  split; [apply (aliases_dec _ _ HA HB); vm_compute; reflexivity|].
  split; [apply forward_dec; vm_compute; reflexivity|].
  split; [apply distinct_dec; vm_compute; reflexivity|apply disjoint_dec; vm_compute; reflexivity].
Qed.

(** C11: commutativity and associativity in what tags read. *)
Theorem C11_join_commutative :
  forall (A : Arith) (L : OrdLaws A) (V K : Type) (kone : K) (X Y Z Z' : @sigset A V K),
  reach kone X -> reach kone Y ->
  join kone X [ASet Y] = Ok Z -> join kone Y [ASet X] = Ok Z' -> distinct_starts (ss_signals Z) ->
  same_content Z Z' /\ same_reading Z Z'.
Proof.
  intros A L V K kone X Y Z Z' HX HY. apply (join_comm kone L); apply (reach_wf kone L); assumption.
Qed.
Print Assumptions C11_join_commutative.

Theorem C11_join_associative :
  forall (A : Arith) (L : OrdLaws A) (V K : Type) (kone : K) (X Y W XY YW Z Z' : @sigset A V K),
  reach kone X -> reach kone Y -> reach kone W ->
  join kone X [ASet Y] = Ok XY -> join kone XY [ASet W] = Ok Z ->
  join kone Y [ASet W] = Ok YW -> join kone X [ASet YW] = Ok Z' ->
  distinct_starts (ss_signals Z) -> same_content Z Z' /\ same_reading Z Z'.
Proof.
  intros A L V K kone X Y W XY YW Z Z' HX HY HW. apply (join_assoc kone L); apply (reach_wf kone L); assumption.
Qed.
Print Assumptions C11_join_associative.

Example C11_example :
  is_ok (join tt setA [ASet setB]) = true /\ is_ok (join tt setB [ASet setA]) = true /\
  is_ok (X <- join tt setA [ASet setB] ;; join tt X [ASet setC]) = true /\
  is_ok (X <- join tt setB [ASet setC] ;; join tt setA [ASet X]) = true /\
  distinct_b (ss_signals (get (X <- join tt setA [ASet setB] ;; join tt X [ASet setC]) x0)) = true.
Proof. repeat split; vm_compute; reflexivity. Qed.
