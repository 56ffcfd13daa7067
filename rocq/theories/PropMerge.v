(** C17-C21: merging signal sets (exact arithmetic). *)
From Coq Require Import QArith Qcanon.
From Verif Require Import Base BaseLemmas SliceLemmas Arith OrdLaws QcLemmas TagsModel SpecTags TagsProofs
  SyncModel SetModel SpecSet SetProofs SpecSelect SpecTime ExtractProofs ExtractSet
  SpecMerge MergeProofs MergeSet MergeRuns MergeOk MergeAlone Samples PropSelect PropTime.
Open Scope nat_scope.

Lemma operands_fine {V K : Type} (kone : K) (X : @sigset QA V K) others :
  (forall Z, In Z (X :: others) -> reach kone Z) -> (forall Z, In Z (X :: others) -> positive_rates Z) -> fine (X :: others).
Proof. intros H1 H2 Z HZ. split; [apply (reach_wf kone QA_ord), H1, HZ|apply H2, HZ]. Qed.
Lemma operands_good {V K : Type} (kone : K) (X : @sigset QA V K) others :
  (forall Z, In Z (X :: others) -> reach kone Z) -> (forall Z, In Z (X :: others) -> plain (ss_tags Z)) -> good (X :: others).
Proof. intros H1 H2 Z HZ. split; [apply (reach_wf kone QA_ord), H1, HZ|apply H2, HZ]. Qed.

(** C17: the merged runs are the common parts, of positive length, of one run of
    each operand with equal rates. *)
Theorem C17_runs_are_common_parts :
  forall (V K : Type) (kone : K) (X : @sigset QA V K) (others : list (@sigset QA V K)) (Y : @sigset QA V K),
  (forall Z, In Z (X :: others) -> reach kone Z) -> (forall Z, In Z (X :: others) -> positive_rates Z) ->
  merge kone X others = Ok Y ->
  (forall s, In s (ss_signals Y) ->
     exists rs D F, choice (X :: others) rs /\ span rs D F /\ (D < F)%Qc /\ common_part (X :: others) rs D F Y s) /\
  (forall rs D F, choice (X :: others) rs -> span rs D F -> (D < F)%Qc -> same_rate rs ->
     exists i s, nth_error (ss_signals Y) i = Some s /\ common_part (X :: others) rs D F Y s /\
       forall j s', nth_error (ss_signals Y) j = Some s' -> s_start s' = D -> j = i) /\
  (forall i j s s', i < j -> nth_error (ss_signals Y) i = Some s -> nth_error (ss_signals Y) j = Some s' ->
     (last_time s <= s_start s')%Qc).
Proof.
  intros V K kone X others Y H1 H2 H. pose proof (operands_fine kone X others H1 H2) as Hf.
  destruct (merge_all_runs kone (X :: others) Y Hf ltac:(discriminate) H) as [A B]. split; [exact A|]. split; [exact B|].
  intros i j s s' Hij Hi Hj. exact (StronglySorted_nth _ _ (wf_before Y (merge_all_wf kone QA_ord _ Y H)) i j s s' Hij Hi Hj).
Qed.
Print Assumptions C17_runs_are_common_parts.

Theorem C17_different_rates_are_skipped :
  forall (V K : Type) (kone : K) (X : @sigset QA V K) (others : list (@sigset QA V K)) (Y : @sigset QA V K) rs D F,
  (forall Z, In Z (X :: others) -> reach kone Z) -> (forall Z, In Z (X :: others) -> positive_rates Z) ->
  merge kone X others = Ok Y ->
  choice (X :: others) rs -> span rs D F -> ~ same_rate rs ->
  forall s, In s (ss_signals Y) -> (last_time s <= D)%Qc \/ (F <= s_start s)%Qc.
Proof.
  intros V K kone X others Y rs D F H1 H2 H. pose proof (operands_fine kone X others H1 H2) as Hf.
  exact (merge_all_skips kone (X :: others) Y rs D F Hf ltac:(discriminate) H).
Qed.
Print Assumptions C17_different_rates_are_skipped.

(** C18: what is read in a merged set comes from the operand that has the tag. *)
Theorem C18_merge_invents_nothing :
  forall (V K : Type) (kone : K) (X : @sigset QA V K) (others : list (@sigset QA V K)) (Y : @sigset QA V K) k p gs',
  (forall Z, In Z (X :: others) -> reach kone Z) -> (forall Z, In Z (X :: others) -> positive_rates Z) ->
  merge kone X others = Ok Y -> tracks Y k p gs' ->
  exists Z gs, In Z (X :: others) /\ tracks Z k p gs /\
    forall g', In g' gs' -> exists g D F, In g gs /\ restricted (within D F) g g'.
Proof.
  intros V K kone X others Y k p gs' H1 H2 H. pose proof (operands_fine kone X others H1 H2) as Hf.
  exact (merge_all_tracks kone (X :: others) Y k p gs' Hf ltac:(discriminate) H).
Qed.
Print Assumptions C18_merge_invents_nothing.

(** C19: nothing common is lost. *)
Theorem C19_merge_loses_nothing_common :
  forall (V K : Type) (kone : K) (X : @sigset QA V K) (others : list (@sigset QA V K)) (Y : @sigset QA V K)
         rs D F i Z r k p g t v,
  (forall Z, In Z (X :: others) -> reach kone Z) -> (forall Z, In Z (X :: others) -> positive_rates Z) ->
  merge kone X others = Ok Y ->
  choice (X :: others) rs -> span rs D F -> (D < F)%Qc -> same_rate rs ->
  nth_error (X :: others) i = Some Z -> nth_error rs i = Some r -> reads_seg (ss_tags Z) r k p g ->
  In (t, v) (seg_samples g) -> (D <= t)%Qc -> (t <= F)%Qc ->
  exists s g', In s (ss_signals Y) /\ reads_seg (ss_tags Y) s k p g' /\ In (t, v) (seg_samples g').
Proof.
  intros V K kone X others Y rs D F i Z r k p g t v H1 H2 H. pose proof (operands_fine kone X others H1 H2) as Hf.
  exact (merge_all_loses_nothing kone (X :: others) Y rs D F i Z r k p g t v Hf ltac:(discriminate) H).
Qed.
Print Assumptions C19_merge_loses_nothing_common.

(** C20: tags of a merged set. *)
Theorem C20_tags_are_the_union :
  forall (V K : Type) (kone : K) (X : @sigset QA V K) (others : list (@sigset QA V K)) (Y : @sigset QA V K),
  (forall Z, In Z (X :: others) -> reach kone Z) -> merge kone X others = Ok Y ->
  disjoint_names (X :: others) /\
  forall k n, tag_size Y k n <-> exists Z, In Z (X :: others) /\ tag_size Z k n.
Proof.
  intros V K kone X others Y H1 H.
  exact (merge_all_tags kone (X :: others) Y (fun Z HZ => reach_wf kone QA_ord Z (H1 Z HZ)) H).
Qed.
Print Assumptions C20_tags_are_the_union.

Theorem C20_channels_add_up :
  forall (V K : Type) (kone : K) (X : @sigset QA V K) (others : list (@sigset QA V K)) (Y : @sigset QA V K),
  (forall Z, In Z (X :: others) -> reach kone Z) -> (forall Z, In Z (X :: others) -> positive_rates Z) ->
  merge kone X others = Ok Y -> ss_signals Y <> [] ->
  nb_channels Y = list_sum (map nb_channels (X :: others)).
Proof.
  intros V K kone X others Y H1 H2 H. pose proof (operands_fine kone X others H1 H2) as Hf.
  exact (merge_all_channels kone (X :: others) Y Hf ltac:(discriminate) H).
Qed.
Print Assumptions C20_channels_add_up.

Theorem C20_shared_name_raises :
  forall (V K : Type) (kone : K) (X : @sigset QA V K) (others : list (@sigset QA V K)),
  (forall Z, In Z (X :: others) -> reach kone Z) -> (forall Z, In Z (X :: others) -> plain (ss_tags Z)) ->
  ~ disjoint_names (X :: others) -> merge kone X others = Err AssertionError.
Proof.
  intros V K kone X others H1 H2. exact (merge_all_shared kone (X :: others) (operands_good kone X others H1 H2)).
Qed.
Print Assumptions C20_shared_name_raises.

(** C21: when merge succeeds and what it raises otherwise. *)
Theorem C21_merge_succeeds_iff :
  forall (V K : Type) (kone : K) (X : @sigset QA V K) (others : list (@sigset QA V K)),
  (forall Z, In Z (X :: others) -> reach kone Z) -> (forall Z, In Z (X :: others) -> positive_rates Z) ->
  (forall Z, In Z (X :: others) -> plain (ss_tags Z)) -> (forall Z, In Z (X :: others) -> ss_signals Z <> []) ->
  others <> [] ->
  ((exists Y, merge kone X others = Ok Y) <-> disjoint_names (X :: others) /\ compatible (X :: others)) /\
  (forall e, merge kone X others = Err e -> e = AssertionError).
Proof.
  intros V K kone X others H1 H2 H3 H4 H5. pose proof (operands_fine kone X others H1 H2) as Hf.
  pose proof (operands_good kone X others H1 H3) as Hg. split; [split|].
  - intros [Y H]. apply (merge_all_compatible kone (X :: others) Y Hf); [|exact H].
    destruct others; [congruence|simpl; lia].
  - intros [D C]. exact (merge_all_ok kone (X :: others) Hf Hg ltac:(discriminate) H4 D C).
  - intros e. exact (merge_all_only_assert kone (X :: others) e Hf Hg ltac:(discriminate) H4).
Qed.
Print Assumptions C21_merge_succeeds_iff.

Theorem C21_operand_without_runs_raises :
  forall (V K : Type) (kone : K) (X : @sigset QA V K) (others : list (@sigset QA V K)) Z,
  (forall Z, In Z (X :: others) -> reach kone Z) -> (forall Z, In Z (X :: others) -> plain (ss_tags Z)) ->
  In Z (X :: others) -> ss_signals Z = [] -> disjoint_names (X :: others) ->
  merge kone X others = Err ValueError.
Proof.
  intros V K kone X others Z H1 H2. exact (merge_all_no_runs kone (X :: others) Z (operands_good kone X others H1 H2)).
Qed.
Print Assumptions C21_operand_without_runs_raises.

Theorem C21_alone :
  forall (V K : Type) (kone : K) (X : @sigset QA V K),
  reach kone X -> positive_rates X -> plain (ss_tags X) -> ss_signals X <> [] -> (forall s, In s (ss_signals X) -> 2 <= s_size s) ->
  merge kone X [] = Ok X.
Proof. intros V K kone X HX. apply (merge_alone kone). apply (reach_wf kone QA_ord), HX. Qed.
Print Assumptions C21_alone.

(** ** Examples *)
(** a remote set: runs [5,24] and [52,56] at 1 Hz *)
Definition tagsR : dict raw := [("R"%string, RInt 0)].
Definition runsR : list xsync := [run 1 20 (q 1) (q 5); run 1 5 (q 1) (q 52)].
Definition setR : xset := set_of tagsR runsR.
Lemma setR_reach : reach tt setR.
Proof. apply set_reach; [vm_compute; reflexivity|]. intros s [<-|[<-|[]]]; apply run_reach; vm_compute; reflexivity. Qed.
Lemma setR_pos : positive_rates setR. Proof. apply positive_dec. vm_compute. reflexivity. Qed.
(** the same, half a sample late *)
Definition setR' : xset := set_of tagsR [run 1 20 (q 1) (qd 11 2)].
Lemma setR'_reach : reach tt setR'.
Proof. apply set_reach; [vm_compute; reflexivity|]. intros s [<-|[]]; apply run_reach; vm_compute; reflexivity. Qed.
Lemma setR'_pos : positive_rates setR'. Proof. apply positive_dec. vm_compute. reflexivity. Qed.

Definition plainb (t : tags) : bool := forallb (fun kl => negb (existsb (String.eqb (fst kl)) special_names)) (t_dict t).
Lemma plain_dec' t : plainb t = true -> plain t.
Proof.
  intros H k l Hk Hin. unfold plainb in H. rewrite forallb_forall in H. specialize (H (k, l) Hk). simpl fst in H.
  apply negb_true_iff in H. assert (existsb (String.eqb k) special_names = true); [|congruence].
  apply existsb_exists. exists k. split; [exact Hin|apply String.eqb_refl].
Qed.
Lemma setR_plain : plain (ss_tags setR). Proof. apply plain_dec'. vm_compute. reflexivity. Qed.
Lemma setR'_plain : plain (ss_tags setR'). Proof. apply plain_dec'. vm_compute. reflexivity. Qed.

(** all of A over the common intervals [5,9] and [20,24]; [52,56], where the
    rates differ, is skipped *)
Example merge_example :
  (forall Z, In Z [setA; setR] -> reach tt Z) /\ (forall Z, In Z [setA; setR] -> positive_rates Z) /\
  (forall Z, In Z [setA; setR] -> plain (ss_tags Z)) /\ (forall Z, In Z [setA; setR] -> ss_signals Z <> []) /\
  viewd (merge tt setA [setR]) =
  Ok ([(5 # 1, 1 # 1, 5); (20 # 1, 1 # 1, 5)], [("E", [0]); ("H", [1]); ("EH", [0; 1]); ("R", [2])]%string,
      [[[105; 106; 107; 108; 109]; [205; 206; 207; 208; 209]; [100; 101; 102; 103; 104]];
       [[100; 101; 102; 103; 104]; [200; 201; 202; 203; 204]; [115; 116; 117; 118; 119]]]%Z).
Proof.
  split; [intros Z [<-|[<-|[]]]; [exact setA_reach|exact setR_reach]|].
  split; [intros Z [<-|[<-|[]]]; [exact setA_pos|exact setR_pos]|].
  split; [intros Z [<-|[<-|[]]]; [exact setA_plain|exact setR_plain]|].
  split; [intros Z [<-|[<-|[]]]; apply nonempty_dec; vm_compute; reflexivity|].
  vm_compute. reflexivity.
Qed.

(** choosing runs by number *)
Definition pick (Xs : list xset) (is : list nat) : list xsync :=
  map (fun Xi => nth (snd Xi) (ss_signals (fst Xi)) y0) (combine Xs is).
Lemma pick_choice : forall Xs is, length is = length Xs ->
  forallb (fun Xi => snd Xi <? length (ss_signals (fst Xi)))%nat (combine Xs is) = true -> choice Xs (pick Xs is).
Proof.
  induction Xs as [|X Xs IH]; intros [|i is] Hl H; try discriminate; [constructor|].
  simpl in H. apply andb_true_iff in H as [H1 H2]. constructor; [apply nth_In, Nat.ltb_lt, H1|]. apply IH; [simpl in Hl; lia|exact H2].
Qed.
Definition spanb (rs : list xsync) (D F : Qc) : bool :=
  existsb (fun r : xsync => Qceqb (s_start r) D) rs && forallb (fun r : xsync => Qcleb (s_start r) D) rs &&
  existsb (fun r : xsync => Qceqb (last_time r) F) rs && forallb (fun r : xsync => Qcleb F (last_time r)) rs.
Lemma span_dec rs D F : spanb rs D F = true -> span rs D F.
Proof.
  unfold spanb. rewrite !andb_true_iff. intros [[[H1 H2] H3] H4]. rewrite forallb_forall in H2, H4.
  apply existsb_exists in H1 as (r & R1 & R2), H3 as (s & S1 & S2). split; split.
  - exists r. split; [exact R1|apply Qceqb_eq, R2].
  - intros r' Hr'. apply Qcleb_le, H2, Hr'.
  - exists s. split; [exact S1|apply Qceqb_eq, S2].
  - intros r' Hr'. apply Qcleb_le, H4, Hr'.
Qed.
Definition same_rateb (rs : list xsync) : bool :=
  match rs with [] => true | r :: rs' => forallb (fun r' : xsync => Qceqb (s_rate r') (s_rate r)) rs' end.
Lemma same_rate_dec rs : same_rateb rs = true -> same_rate rs.
Proof.
  destruct rs as [|a rs]; [intros _ r r' []|]. simpl. intros H. rewrite forallb_forall in H.
  assert (G : forall r, In r (a :: rs) -> s_rate r = s_rate a) by (intros r [<-|Hr]; [reflexivity|apply Qceqb_eq, H, Hr]).
  intros r r' Hr Hr'. rewrite (G r Hr), (G r' Hr'). reflexivity.
Qed.

Example C17_example : let rs := pick [setA; setR] [1; 0] in
  choice [setA; setR] rs /\ span rs (q 20) (q 24) /\ (q 20 < q 24)%Qc /\ same_rate rs.
Proof.
  split; [apply pick_choice; vm_compute; reflexivity|]. split; [apply span_dec; vm_compute; reflexivity|].
  split; [apply qclt_dec; vm_compute; reflexivity|apply same_rate_dec; vm_compute; reflexivity].
Qed.
Example C17_skipped_example : let rs := pick [setA; setR] [2; 1] in
  choice [setA; setR] rs /\ span rs (q 52) (q 56) /\ ~ same_rate rs.
Proof.
  split; [apply pick_choice; vm_compute; reflexivity|]. split; [apply span_dec; vm_compute; reflexivity|].
  intros H. specialize (H (nth 2 (ss_signals setA) y0) (nth 1 (ss_signals setR) y0) (or_introl eq_refl) (or_intror (or_introl eq_refl))).
  apply (proj2 (Qceqb_eq _ _)) in H. revert H. vm_compute. discriminate.
Qed.
(** the tag H of the merged set, run after run *)
Example C18_example : let Y := get (merge tt setA [setR]) x0 in
  merge tt setA [setR] = Ok Y /\
  reads (ss_tags Y) "H" [1] /\ map (fun s => nth_error s 1) (datas Y) = [Some [205; 206; 207; 208; 209]; Some [200; 201; 202; 203; 204]]%Z.
Proof.
  split; [apply get_ok; vm_compute; reflexivity|]. split; [|vm_compute; reflexivity].
  unfold reads. vm_compute. auto.
Qed.
(** sample 22 of the tag R *)
Example C19_example : let rs := pick [setA; setR] [1; 0] in
  nth_error [setA; setR] 1 = Some setR /\ nth_error rs 1 = Some (nth 0 (ss_signals setR) y0) /\
  reads (ss_tags setR) "R" [0] /\ nth_error (nth 0 (s_data (nth 0 (ss_signals setR) y0)) []) 17 = Some 117%Z /\
  this (sample_time (nth 0 (ss_signals setR) y0) 17) = 22 # 1.
Proof.
  split; [reflexivity|]. split; [reflexivity|]. split; [unfold reads; vm_compute; auto|]. split; vm_compute; reflexivity.
Qed.
Definition disjointb (Xs : list xset) : bool :=
  let ns := concat (map (fun X : xset => map fst (t_dict (ss_tags X))) Xs) in (length (dedup String.eqb ns) =? length ns)%nat.
Example C20_example : is_ok (merge tt setA [setR]) = true /\ nb_channels (get (merge tt setA [setR]) x0) = 3 /\
  viewd (merge tt setA [setB]) = Err AssertionError.
Proof. repeat split; vm_compute; reflexivity. Qed.
(** out of phase by half a sample *)
Example C21_example_alone : (forall s, In s (ss_signals setA) -> 2 <= s_size s) /\ viewd (merge tt setA []) = viewd (Ok setA).
Proof.
  split; [|vm_compute; reflexivity].
  assert (G : forallb (fun s : xsync => 2 <=? s_size s) (ss_signals setA) = true) by (vm_compute; reflexivity).
  rewrite forallb_forall in G. intros s Hs. apply Nat.leb_le, (G s Hs).
Qed.
Example C21_example : viewd (merge tt setA [setR']) = Err AssertionError /\ positive_rates setR' /\ reach tt setR' /\ plain (ss_tags setR') /\
  viewd (merge tt setA [mkSet [] (ss_tags setR)]) = Err ValueError.
Proof.
  split; [vm_compute; reflexivity|]. split; [exact setR'_pos|]. split; [exact setR'_reach|]. split; [exact setR'_plain|]. vm_compute; reflexivity.
Qed.
