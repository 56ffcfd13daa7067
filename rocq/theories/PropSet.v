(** C04-C06, C28: construction and well-formedness of signal sets.

    [A] is the arithmetic of times and [L : OrdLaws A] says that comparisons of
    times other than NaN form a total preorder; [QA_ord] (exact rationals) and
    [FA_ord] (IEEE binary64) are the two instances. *)
From Coq Require Import QArith Qcanon.
From Verif Require Import Base BaseLemmas Arith OrdLaws FloatArith TagsModel SpecTags TagsProofs
  SyncModel SetModel SpecSet SetProofs SpecSelect TrackProofs SelectProofs OrderProofs Samples.
Open Scope Z_scope.
Local Open Scope string_scope.

(** C04: every set built by any sequence of public operations is well formed. *)
Theorem C04_reachable_well_formed_exact : forall (V K : Type) (kone : K) (X : @sigset QA V K),
  reach kone X -> wf_set X.
Proof. intros V K kone X. apply (reach_wf kone QA_ord). Qed.
Print Assumptions C04_reachable_well_formed_exact.

Theorem C04_reachable_well_formed_binary64 : forall (V K : Type) (kone : K) (X : @sigset FA V K),
  reach kone X -> wf_set X.
Proof. intros V K kone X. apply (reach_wf kone FA_ord). Qed.
Print Assumptions C04_reachable_well_formed_binary64.

Definition C04_e1 : xset := get (extract_t tt setA (q 5) (q 25) false) x0.
Definition C04_e2 : xset := get (merge_consecutive_runs tt C04_e1) x0.
Example C04_example : reach tt setA /\ reach tt C04_e1 /\ reach tt C04_e2 /\
  times C04_e2 = [((5#1)%Q, (1#1)%Q, 5%nat); ((20#1)%Q, (1#1)%Q, 6%nat)].
Proof.
  pose proof setA_reach as H0.
  assert (H1 : reach tt C04_e1).
  { apply (r_extract_t tt setA (q 5) (q 25) false C04_e1 H0). apply get_ok. vm_compute. reflexivity. }
  assert (H2 : reach tt C04_e2).
  { apply (r_consecutive tt C04_e1 C04_e2 H1). apply get_ok. vm_compute. reflexivity. }
  split; [exact H0|]. split; [exact H1|]. split; [exact H2|]. vm_compute. reflexivity.
Qed.

(** C05: the order in which runs with distinct start times are given is irrelevant,
    for the result and for the exception raised. *)
Theorem C05_argument_order_irrelevant :
  forall (A : Arith) (L : OrdLaws A) (V K : Type) (kone : K) tg (l l' : list (sync A V K)),
  distinct_starts l -> Permutation l l' ->
  set_new kone tg (map ASync l) = set_new kone tg (map ASync l').
Proof.
  intros A L V K kone tg l l' Hd HP. rewrite !set_new_syncs. exact (set_of_syncs_perm L tg l l' Hd HP).
Qed.
Print Assumptions C05_argument_order_irrelevant.

Example C05_example : distinct_starts runsA /\
  view (set_new tt (TDict tagsA) (map ASync (rev runsA))) = view (Ok setA).
Proof.
  split; [|vm_compute; reflexivity].
  apply distinct_dec. vm_compute. reflexivity.
Qed.

(** with equal starts the order decides *)
Theorem C05_equal_starts_refuted : exists tg (l l' : list xsync),
  Permutation l l' /\ is_ok (set_new tt tg (map ASync l)) = true /\
  set_new tt tg (map ASync l') = Err AssertionError.
Proof.
  exists (TDict []), [run 1 1 (q 1) (q 0); run 1 2 (q 1) (q 0)], [run 1 2 (q 1) (q 0); run 1 1 (q 1) (q 0)].
  split; [apply perm_swap|]. split; [vm_compute; reflexivity|]. apply err_err. vm_compute. reflexivity.
Qed.
Print Assumptions C05_equal_starts_refuted.

(** C06: the constructor accepts exactly compatible, pairwise disjoint runs with
    tags legal for their number of channels. *)
Theorem C06_constructor_accepts :
  forall (A : Arith) (L : OrdLaws A) (V K : Type) (kone : K) d (l : list (sync A V K)),
  l <> [] -> (forall s, In s l -> reach_sync kone s) -> (forall s, In s l -> forward s) ->
  distinct_starts l -> ~ In "indices" (map fst d) ->
  ((exists X, set_new kone (TDict d) (map ASync l) = Ok X) <->
   same_channels l /\ (forall s, In s l -> neqb A (s_rate s) (nzero A) = false) /\ disjoint_runs l /\
   (forall s, In s l -> tags_legal (length (s_data s)) d)).
Proof.
  intros A L V K kone d l Hne Hr. apply (set_new_accepts kone L d l Hne).
  intros s Hs. apply (proj1 (reach_all kone L)). auto.
Qed.
Print Assumptions C06_constructor_accepts.

Theorem C06_constructor_result :
  forall (A : Arith) (V K : Type) (kone : K) tg (l : list (sync A V K)) X,
  set_new kone tg (map ASync l) = Ok X -> Permutation l (ss_signals X).
Proof. intros A V K kone tg l X. apply set_new_result. Qed.
Print Assumptions C06_constructor_result.

Example C06_example :
  (forall s, In s runsA -> reach_sync tt s) /\ (forall s, In s runsA -> forward s) /\
  same_channels runsA /\ disjoint_runs runsA /\ tags_legal 2 tagsA /\
  is_ok (set_new tt (TDict tagsA) (map ASync runsA)) = true /\
  err (set_new tt (TDict tagsA) (map ASync (run 2 3 (q 1) (q 8) :: runsA))) = Some AssertionError /\
  err (set_new tt (TDict [("E", RInt 2)]) (map ASync runsA)) = Some ValueError.
Proof.
  split; [intros s [<-|[<-|[<-|[]]]]; apply run_reach; vm_compute; reflexivity|].
  split; [apply forward_dec; vm_compute; reflexivity|].
  split; [apply same_chan_dec; vm_compute; reflexivity|].
  split; [apply disjoint_dec; vm_compute; reflexivity|].
  split; [|repeat split; vm_compute; reflexivity].
  intros k v [E|[E|[E|[]]]]; injection E as <- <-;
    (split; [intros [E|E]; discriminate|split; [eexists _, _; split; [reflexivity|apply is_alpha_letters; reflexivity]|
     split; [discriminate|intros z Hz; simpl in Hz; lia]]]).
Qed.

(** C28: construction of a synchronous signal. *)
Theorem C28_sync_construction :
  forall (A : Arith) (V K : Type) (kone : K) (data : list (list V)) rate start (cal : option (list K)),
  let given := match cal with None | Some [] => false | Some (_ :: _) => true end in
  ((exists s : sync A V K, sync_new kone data rate start cal = Ok s) <->
   data <> [] /\ (forall c d, In c data -> In d data -> length c = length d) /\
   (given = true -> exists l, cal = Some l /\ length l = length data)) /\
  (forall s : sync A V K, sync_new kone data rate start cal = Ok s ->
     s_data s = data /\ s_rate s = rate /\ s_start s = start /\ (forall c, In c data -> s_size s = length c) /\
     (given = true -> cal = Some (s_cal s)) /\ (given = false -> s_cal s = repeat kone (length data))).
Proof.
  intros A V K kone data rate start cal given. split.
  - split.
    + intros [s Hs]. pose proof Hs as Hs'. apply sync_new_inv in Hs as (Hd & _ & _ & Hok & Hc).
      subst data. split; [apply Hok|]. split.
      * intros c d Hc1 Hd1. rewrite (so_size _ Hok c Hc1), (so_size _ Hok d Hd1). reflexivity.
      * intros Hg. unfold given in Hg. destruct cal as [[|k cal]|]; try discriminate.
        exists (k :: cal). split; [reflexivity|]. rewrite <- Hc. apply Hok.
    + intros (Hne & Hl & Hg). unfold given in Hg. destruct cal as [[|k cal]|].
      * destruct (sync_new_exists kone data rate start (repeat kone (length data)) Hne (repeat_length _ _) Hl) as [s Hs].
        exists s. rewrite <- Hs. unfold sync_new. destruct data; [congruence|reflexivity].
      * destruct (Hg eq_refl) as (l & E & El). injection E as <-. apply sync_new_exists; assumption.
      * destruct (sync_new_exists kone data rate start (repeat kone (length data)) Hne (repeat_length _ _) Hl) as [s Hs].
        exists s. rewrite <- Hs. unfold sync_new. destruct data; [congruence|reflexivity].
  - intros s Hs. pose proof Hs as Hs'. apply sync_new_inv in Hs as (Hd & Hr & Hst & Hok & Hc).
    split; [exact Hd|]. split; [exact Hr|]. split; [exact Hst|]. split; [|split].
    + intros c Hin. subst data. symmetry. apply (so_size _ Hok c Hin).
    + intros Hg. unfold given in Hg. destruct cal as [[|k cal]|]; try discriminate. rewrite Hc. reflexivity.
    + intros Hg. unfold given in Hg. destruct cal as [[|k cal]|]; try discriminate; exact Hc.
Qed.
Print Assumptions C28_sync_construction.

Example C28_example :
  is_ok (@sync_new QA Z Z 1 [[1; 2; 3]; [4; 5; 6]] (q 1) (q 0) (Some [7; 8])) = true /\
  is_ok (@sync_new QA Z Z 1 [[1; 2; 3]; [4; 5; 6]] (q 1) (q 0) None) = true /\
  err (@sync_new QA Z Z 1 [[1; 2; 3]; [4; 5]] (q 1) (q 0) None) = Some AssertionError /\
  err (@sync_new QA Z Z 1 [[1; 2; 3]; [4; 5; 6]] (q 1) (q 0) (Some [7])) = Some AssertionError /\
  err (@sync_new QA Z Z 1 [] (q 1) (q 0) None) = Some AssertionError.
Proof. repeat split; vm_compute; reflexivity. Qed.
