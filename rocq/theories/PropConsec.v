(** C22-C26: merging consecutive runs (exact arithmetic). *)
From Coq Require Import QArith Qcanon.
From Verif Require Import Base BaseLemmas SliceLemmas Arith OrdLaws QcLemmas TagsModel SpecTags TagsProofs
  SyncModel SetModel SpecSet SetProofs SpecSelect SpecTime ExtractProofs ExtractSet ExcludeProofs
  SpecConsec GroupProofs ConsecProofs ConsecSet ConsecTime ConsecOk Samples PropSelect ConsecSamples.
Open Scope nat_scope.

Lemma regular_of {V K : Type} (kone : K) (X : @sigset QA V K) : reach kone X -> plain (ss_tags X) -> positive_rates X ->
  no_empty_run X -> distinct_starts (ss_signals X) -> exact_gaps X -> regular X.
Proof. intros H1 H2 H3 H4 H5 H6. split; try assumption. exact (reach_wf kone QA_ord X H1). Qed.

(** C22: the runs of the result are the maximal blocks of consecutive runs put end to end. *)
Theorem C22_runs_are_maximal_blocks :
  forall (V K : Type) (kone : K) (X Y : @sigset QA V K),
  reach kone X -> distinct_starts (ss_signals X) -> merge_consecutive_runs kone X = Ok Y ->
  exists bs, blocks (ss_signals X) bs /\ Forall2 glued bs (ss_signals Y) /\ t_dict (ss_tags Y) = t_dict (ss_tags X).
Proof. intros V K kone X Y HX. apply mcr_blocks, (reach_wf kone QA_ord), HX. Qed.
Print Assumptions C22_runs_are_maximal_blocks.

Theorem C22_values_are_conserved :
  forall (V K : Type) (kone : K) (X Y : @sigset QA V K) k p gs,
  reach kone X -> distinct_starts (ss_signals X) -> merge_consecutive_runs kone X = Ok Y ->
  tracks X k p gs -> exists gs', tracks Y k p gs' /\ concat (map g_vals gs') = concat (map g_vals gs).
Proof.
  intros V K kone X Y k p gs HX Hd H Ht. destruct (mcr_tracks kone X Y k p gs (reach_wf kone QA_ord X HX) Hd H Ht) as (gs' & H1 & H2 & _). eauto.
Qed.
Print Assumptions C22_values_are_conserved.

Theorem C22_none_left :
  forall (V K : Type) (kone : K) (X Y : @sigset QA V K),
  reach kone X -> plain (ss_tags X) -> positive_rates X -> no_empty_run X -> distinct_starts (ss_signals X) -> exact_gaps X ->
  merge_consecutive_runs kone X = Ok Y -> forall r r', adjacent (ss_signals Y) r r' -> ~ follows r r'.
Proof. intros V K kone X Y H1 H2 H3 H4 H5 H6 H. exact (proj2 (mcr_regular kone X Y (regular_of kone X H1 H2 H3 H4 H5 H6) H)). Qed.
Print Assumptions C22_none_left.

Lemma setG_plain : plain (ss_tags setG). Proof. apply plain_dec. vm_compute. reflexivity. Qed.
Lemma setU_plain : plain (ss_tags setU). Proof. apply plain_dec. vm_compute. reflexivity. Qed.
Lemma setU2_plain : plain (ss_tags setU2). Proof. apply plain_dec. vm_compute. reflexivity. Qed.
Example C22_example :
  reach tt setG /\ distinct_starts (ss_signals setG) /\ plain (ss_tags setG) /\ positive_rates setG /\ no_empty_run setG /\ exact_gaps setG /\
  view (merge_consecutive_runs tt setG) =
    Ok ([(0, 1, 15%nat); (20, 2, 12%nat); (30, 1, 10%nat)]%Q, [("E", [0]); ("H", [1]); ("EH", [0; 1])]%string).
Proof.
  split; [exact setG_reach|]. split; [exact setG_distinct|]. split; [exact setG_plain|]. split; [exact setG_pos|].
  split; [exact setG_full|]. split; [exact setG_exact|]. vm_compute. reflexivity.
Qed.

(** C23: with exact gaps every sample keeps its time. *)
Theorem C23_exact_gaps_keep_times :
  forall (V K : Type) (kone : K) (X Y : @sigset QA V K) k p gs,
  reach kone X -> positive_rates X -> distinct_starts (ss_signals X) -> exact_gaps X -> merge_consecutive_runs kone X = Ok Y ->
  tracks X k p gs ->
  exists gs', tracks Y k p gs' /\ concat (map (@seg_samples QA V K) gs') = concat (map (@seg_samples QA V K) gs).
Proof.
  intros V K kone X Y k p gs HX Hp Hd Hg H Ht.
  destruct (mcr_tracks kone X Y k p gs (reach_wf kone QA_ord X HX) Hd H Ht) as (gs' & H1 & _ & H2). eauto.
Qed.
Print Assumptions C23_exact_gaps_keep_times.

(** In general a sample moves by at most the sum of the tolerances of the gaps before it in its block. *)
Theorem C23_displacement_is_bounded :
  forall (V K : Type) (kone : K) (X Y : @sigset QA V K),
  reach kone X -> positive_rates X -> distinct_starts (ss_signals X) -> merge_consecutive_runs kone X = Ok Y ->
  exists bs, blocks (ss_signals X) bs /\ Forall2 (fun b s => glued b s /\ displaced b s) bs (ss_signals Y).
Proof. intros V K kone X Y HX. apply mcr_displaced, (reach_wf kone QA_ord), HX. Qed.
Print Assumptions C23_displacement_is_bounded.

Example C23_example :
  reach tt setT2 /\ positive_rates setT2 /\ distinct_starts (ss_signals setT2) /\
  times setT2 = [(0, 1, 10%nat); (999999 # 100000, 1, 10%nat)]%Q /\
  view (merge_consecutive_runs tt setT2) = Ok ([(0, 1, 20%nat)]%Q, [("E", [0]); ("H", [1]); ("EH", [0; 1])]%string).
Proof.
  split; [exact setT2_reach|]. split; [exact setT2_pos|]. split; [exact setT2_distinct|]. split; vm_compute; reflexivity.
Qed.

(** C24: a second application changes nothing (exact gaps, last channel tagged). *)
Theorem C24_idempotent :
  forall (V K : Type) (kone : K) (X Y : @sigset QA V K),
  reach kone X -> plain (ss_tags X) -> positive_rates X -> no_empty_run X -> distinct_starts (ss_signals X) -> exact_gaps X ->
  top_tagged (ss_tags X) -> ss_signals X <> [] ->
  merge_consecutive_runs kone X = Ok Y -> merge_consecutive_runs kone Y = Ok Y.
Proof. intros V K kone X Y H1 H2 H3 H4 H5 H6. exact (mcr_idempotent kone X Y (regular_of kone X H1 H2 H3 H4 H5 H6)). Qed.
Print Assumptions C24_idempotent.

Lemma setG_top : top_tagged (ss_tags setG).
Proof. right. exists "H"%string, [1]. split; [right; left; vm_compute; reflexivity|left; vm_compute; reflexivity]. Qed.
Example C24_example :
  reach tt setG /\ plain (ss_tags setG) /\ positive_rates setG /\ no_empty_run setG /\ distinct_starts (ss_signals setG) /\ exact_gaps setG /\
  top_tagged (ss_tags setG) /\ ss_signals setG <> [] /\ is_ok (merge_consecutive_runs tt setG) = true /\
  times (get (merge_consecutive_runs tt setG) x0) <> times setG.
Proof.
  split; [exact setG_reach|]. split; [exact setG_plain|]. split; [exact setG_pos|]. split; [exact setG_full|]. split; [exact setG_distinct|].
  split; [exact setG_exact|]. split; [exact setG_top|]. split; [intros E; apply (f_equal (@length _)) in E; vm_compute in E; discriminate|].
  split; [vm_compute; reflexivity|]. intros E. apply (f_equal (@length _)) in E. vm_compute in E. discriminate.
Qed.

(** Without a tag on the last channel the second application raises. *)
Theorem C24_untagged_refuted :
  exists X Y : xset, reach tt X /\ plain (ss_tags X) /\ positive_rates X /\ no_empty_run X /\ distinct_starts (ss_signals X) /\ exact_gaps X /\
  merge_consecutive_runs tt X = Ok Y /\ merge_consecutive_runs tt Y = Err KeyError.
Proof.
  exists setU2, (get (merge_consecutive_runs tt setU2) x0).
  split; [exact setU2_reach|]. split; [exact setU2_plain|]. split; [exact setU2_pos|]. split; [exact setU2_full|]. split; [exact setU2_distinct|].
  split; [exact setU2_exact|]. split; [apply get_ok; vm_compute; reflexivity|]. apply err_err. vm_compute. reflexivity.
Qed.
Print Assumptions C24_untagged_refuted.

(** C25: success. *)
Theorem C25_success :
  forall (V K : Type) (kone : K) (X : @sigset QA V K),
  reach kone X -> plain (ss_tags X) -> positive_rates X -> no_empty_run X -> distinct_starts (ss_signals X) -> exact_gaps X ->
  ss_signals X = [] \/ top_tagged (ss_tags X) \/ (exists r r', adjacent (ss_signals X) r r' /\ follows r r') ->
  exists Y, merge_consecutive_runs kone X = Ok Y /\ (ss_signals X <> [] -> ss_tags Y = ss_tags X).
Proof. intros V K kone X H1 H2 H3 H4 H5 H6. exact (mcr_ok kone X (regular_of kone X H1 H2 H3 H4 H5 H6)). Qed.
Print Assumptions C25_success.

(** C25: the remaining sets raise KeyError. *)
Theorem C25_untagged_raises :
  forall (V K : Type) (kone : K) (X : @sigset QA V K),
  reach kone X -> plain (ss_tags X) -> positive_rates X -> no_empty_run X -> distinct_starts (ss_signals X) ->
  ss_signals X <> [] -> ~ top_tagged (ss_tags X) -> (forall r r', adjacent (ss_signals X) r r' -> ~ follows r r') ->
  merge_consecutive_runs kone X = Err KeyError.
Proof.
  intros V K kone X H1 H2 H3 H4 H5 Hne Ht Hno. apply mcr_untagged; try assumption. apply (regular_of kone); try assumption.
  intros r r' Ha Hf. destruct (Hno r r' Ha Hf).
Qed.
Print Assumptions C25_untagged_raises.

Lemma setU_top : ~ top_tagged (ss_tags setU).
Proof.
  intros [H|(k & l & Hk & Hl)]; [vm_compute in H; discriminate|]. change (t_n (ss_tags setU) - 1) with 1 in Hl.
  unfold reads in Hk. change (t_dict (ss_tags setU)) with [("E"%string, [0])] in Hk.
  destruct Hk as [Hk|[]]. injection Hk as <- <-. destruct Hl as [Hl|[]]. discriminate.
Qed.
Example C25_example :
  reach tt setU /\ plain (ss_tags setU) /\ positive_rates setU /\ no_empty_run setU /\ distinct_starts (ss_signals setU) /\
  ss_signals setU <> [] /\ ~ top_tagged (ss_tags setU) /\ (forall r r', adjacent (ss_signals setU) r r' -> ~ follows r r').
Proof.
  split; [exact setU_reach|]. split; [exact setU_plain|]. split; [exact setU_pos|]. split; [exact setU_full|]. split; [exact setU_distinct|].
  split; [intros E; apply (f_equal (@length _)) in E; vm_compute in E; discriminate|]. split; [exact setU_top|exact setU_apart].
Qed.

(** C25: tolerated gaps can push a block over the next run. *)
Theorem C25_drift_raises :
  exists X : xset, reach tt X /\ positive_rates X /\ no_empty_run X /\ distinct_starts (ss_signals X) /\ top_tagged (ss_tags X) /\
  merge_consecutive_runs tt X = Err AssertionError.
Proof.
  exists setT. split; [exact setT_reach|]. split; [exact setT_pos|]. split; [exact setT_full|]. split; [exact setT_distinct|].
  split; [right; exists "H"%string, [1]; split; [right; left; vm_compute; reflexivity|left; vm_compute; reflexivity]|]. apply err_err. vm_compute. reflexivity.
Qed.
Print Assumptions C25_drift_raises.

(** C26: the groups are the maximal blocks of set flags, widened by one, in order. *)
Theorem C26_groups_are_maximal_blocks :
  forall (l : list bool) s e, In (s, e) (group_indices l) <->
  exists b, block l s b /\ (b < length l /\ e = Some (b + 1) \/ b = length l /\ e = None).
Proof. exact group_indices_spec. Qed.
Print Assumptions C26_groups_are_maximal_blocks.

Theorem C26_groups_in_order :
  forall (l : list bool) i j s e s' e', i < j ->
  nth_error (group_indices l) i = Some (s, e) -> nth_error (group_indices l) j = Some (s', e') ->
  exists b, e = Some b /\ b <= s'.
Proof. intros l i j s e s' e'. exact (StronglySorted_nth _ _ (group_indices_sorted l) i j (s, e) (s', e')). Qed.
Print Assumptions C26_groups_in_order.

Example C26_example : group_indices [true; true; false; true; false; false; true] = [(0, Some 3); (3, Some 5); (6, None)].
Proof. reflexivity. Qed.
