(** Specification vocabulary for signals and signal sets: well-formedness,
    reachable objects, and what a user reads through a tag. *)
From Verif Require Import Base Arith TagsModel SyncModel SetModel SpecTags.

Section SpecSet.
Context {A : Arith} {V K : Type} (kone : K).
Notation sync := (sync A V K).
Notation sigset := (@sigset A V K).

(** every channel has [s_size] samples and one calibration *)
Record sync_ok (s : sync) : Prop := {
  so_chan : s_data s <> [];
  so_cal : length (s_cal s) = length (s_data s);
  so_size : forall c, In c (s_data s) -> length c = s_size s
}.

(** time of sample number [i], time of the last sample *)
Definition sample_time (s : sync) (i : Z) : num A :=
  nadd A (s_start s) (ndiv A (nofZ A i) (s_rate s)).
Definition last_time (s : sync) : num A := sample_time s (Z.of_nat (s_size s) - 1).

Record wf_set (X : sigset) : Prop := {
  ws_sync : forall s, In s (ss_signals X) -> sync_ok s;
  ws_chan : forall s, In s (ss_signals X) -> length (s_data s) = t_n (ss_tags X);
  ws_rate : forall s, In s (ss_signals X) -> neqb A (s_rate s) (nzero A) = false;
  ws_sorted : forall i j s s', i < j ->
    nth_error (ss_signals X) i = Some s -> nth_error (ss_signals X) j = Some s' ->
    nltb A (s_start s') (s_start s) = false;
  ws_apart : forall i s s',
    nth_error (ss_signals X) i = Some s -> nth_error (ss_signals X) (S i) = Some s' ->
    nleb A (last_time s) (s_start s') = true;
  ws_tags : tags_valid (ss_tags X)
}.

(** Objects a program can build with the public API. Signal sets and
    synchronous signals are immutable values; tags are mutable, so a signal set
    whose tags went through any history of operations is reachable too.
    Operations that raise leave every object as it was (except [Tags.update],
    see [t_update]). *)
Inductive reach_sync : sync -> Prop :=
| rs_new : forall data rate start cal s,
    sync_new kone data rate start cal = Ok s -> reach_sync s
| rs_select : forall s idx s', reach_sync s -> s_select kone s idx = Ok s' -> reach_sync s'
| rs_extract_i : forall s a b strict last s', reach_sync s ->
    extract_i kone s a b strict last = Ok s' -> reach_sync s'
| rs_extract_t : forall s a b strict s', reach_sync s ->
    sync_extract_t kone s a b strict = Ok s' -> reach_sync s'
| rs_run : forall X s, reach X -> In s (ss_signals X) -> reach_sync s
with reach_tags : tags -> Prop :=
| rt_new : forall n d t, tags_new n d = Ok t -> reach_tags t
| rt_ops : forall t ops, reach_tags t -> reach_tags (t_run t ops)
| rt_of : forall X, reach X -> reach_tags (ss_tags X)
with reach_tagarg : tagarg -> Prop :=
| ra_obj : forall t, reach_tags t -> reach_tagarg (TObj t)
| ra_dict : forall d, reach_tagarg (TDict d)
with reach_arg : sigarg -> Prop :=
| ra_sync : forall s, reach_sync s -> reach_arg (ASync s)
| ra_set : forall X, reach X -> reach_arg (ASet X)
with reach : sigset -> Prop :=
| r_new : forall tg args X, reach_tagarg tg -> (forall a, In a args -> reach_arg a) ->
    set_new kone tg args = Ok X -> reach X
| r_join : forall X args Y, reach X -> (forall a, In a args -> reach_arg a) ->
    join kone X args = Ok Y -> reach Y
| r_merge : forall X others Y, reach X -> (forall Z, In Z others -> reach Z) ->
    merge kone X others = Ok Y -> reach Y
| r_select_channels : forall X c Y, reach X -> select_channels kone X c = Ok Y -> reach Y
| r_select_runs : forall X r Y, reach X -> select_runs kone X r = Ok Y -> reach Y
| r_getitem : forall X i Y, reach X -> getitem kone X i = Ok Y -> reach Y
| r_extract_t : forall X a b excl Y, reach X -> extract_t kone X a b excl = Ok Y -> reach Y
| r_consecutive : forall X Y, reach X -> merge_consecutive_runs kone X = Ok Y -> reach Y
| r_assign : forall X tg Y, reach X -> reach_tagarg tg -> assign_tags X tg = Ok Y -> reach Y
| r_mutate : forall X ops, reach X -> reach (mkSet (ss_signals X) (t_run (ss_tags X) ops)).

(** What is recorded for one channel during one run. *)
Record seg : Type := mkSeg {
  g_rate : num A; g_start : num A; g_vals : list V; g_cal : K
}.

(** [g] is channel [c] of the run [s] *)
Definition is_seg (s : sync) (c : nat) (g : seg) : Prop :=
  nth_error (s_data s) c = Some (g_vals g) /\ nth_error (s_cal s) c = Some (g_cal g) /\
  g_rate g = s_rate s /\ g_start g = s_start s.

(** [tracks X k p gs]: through position [p] of the tag [k] a user reads, run
    after run, the segments [gs] *)
Definition tracks (X : sigset) (k : string) (p : nat) (gs : list seg) : Prop :=
  exists l c, reads (ss_tags X) k l /\ nth_error l p = Some c /\
              Forall2 (fun s g => is_seg s c g) (ss_signals X) gs.

(** number of channels of a tag *)
Definition tag_size (X : sigset) (k : string) (n : nat) : Prop :=
  exists l, reads (ss_tags X) k l /\ length l = n.

(** same data through tags: same names with the same sizes, same segments *)
Definition same_reading (X Y : sigset) : Prop :=
  (forall k n, tag_size X k n <-> tag_size Y k n) /\
  (forall k p gs, tracks X k p gs <-> tracks Y k p gs).

(** segment [g] of one run, read through position [p] of the tag [k] *)
Definition reads_seg (t : tags) (s : sync) (k : string) (p : nat) (g : seg) : Prop :=
  exists l c, reads t k l /\ nth_error l p = Some c /\ is_seg s c g.

(** the run [s] under the tags [t] and the run [s'] under [t'] record the same
    thing: same rate, start and size, same samples and calibrations through
    every position of every tag *)
Definition same_run (t : tags) (s : sync) (t' : tags) (s' : sync) : Prop :=
  s_rate s' = s_rate s /\ s_start s' = s_start s /\ s_size s' = s_size s /\
  forall k p g, reads_seg t s k p g <-> reads_seg t' s' k p g.

(** the runs of a constructor argument with the tags they are read with; a bare
    run is read with the tags [t] of the set under construction *)
Definition arg_runs (t : tags) (a : sigarg) : list (tags * sync) :=
  match a with
  | ASync s => [(t, s)]
  | ASet X => map (pair (ss_tags X)) (ss_signals X)
  end.

Definition run_is (t' : tags) (ts : tags * sync) (s' : sync) : Prop := same_run (fst ts) (snd ts) t' s'.
(** the set [Z] holds exactly the runs [base] *)
Definition holds (base : list (tags * sync)) (Z : sigset) : Prop :=
  exists runs, Permutation base runs /\ Forall2 (run_is (ss_tags Z)) runs (ss_signals Z).

(** same runs in the same order *)
Definition same_content (Z Z' : sigset) : Prop :=
  Forall2 (fun s s' => same_run (ss_tags Z) s (ss_tags Z') s') (ss_signals Z) (ss_signals Z').

Definition set_runs (X : sigset) : list (tags * sync) := map (pair (ss_tags X)) (ss_signals X).

(** timestamped samples of a segment, and of a list of segments *)
Definition seg_samples (g : seg) : list (num A * V) :=
  map (fun iv => (nadd A (g_start g) (ndiv A (nofZ A (Z.of_nat (fst iv))) (g_rate g)), snd iv))
      (combine (seq 0 (length (g_vals g))) (g_vals g)).

(** a run that does not stop before it starts (true of a non-empty run with
    positive rate in exact arithmetic) *)
Definition forward (s : sync) : Prop := nleb A (s_start s) (last_time s) = true.
(** no two runs of the list start at the same time *)
Definition distinct_starts (l : list sync) : Prop :=
  ForallOrdPairs (fun s s' => nltb A (s_start s) (s_start s') = true \/
                              nltb A (s_start s') (s_start s) = true) l.
(** of any two runs of the list, one stops no later than the other starts *)
Definition disjoint_runs (l : list sync) : Prop :=
  ForallOrdPairs (fun s s' => nleb A (last_time s) (s_start s') = true \/
                              nleb A (last_time s') (s_start s) = true) l.
Definition same_channels (l : list sync) : Prop :=
  forall s s', In s l -> In s' l -> length (s_data s) = length (s_data s').

End SpecSet.
