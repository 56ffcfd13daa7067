(** Specification vocabulary for [merge] (exact arithmetic). *)
From Coq Require Import QArith Qcanon.
From Verif Require Import Base Arith TagsModel SyncModel SetModel SpecTags SpecSet QcLemmas SpecTime.

Section SpecMerge.
Context {V K : Type}.
Notation sync := (sync QA V K).
Notation sigset := (@sigset QA V K).
Notation seg := (@seg QA V K).

(** one run of each operand *)
Definition choice (seqs : list sigset) (rs : list sync) : Prop :=
  Forall2 (fun X r => In r (ss_signals X)) seqs rs.
(** [D] is the latest start of the runs [rs], [F] the earliest stop *)
Definition span (rs : list sync) (D F : Qc) : Prop :=
  ((exists r, In r rs /\ s_start r = D) /\ forall r, In r rs -> (s_start r <= D)%Qc) /\
  ((exists r, In r rs /\ last_time r = F) /\ forall r, In r rs -> (F <= last_time r)%Qc).
Definition same_rate (rs : list sync) : Prop :=
  forall r r', In r rs -> In r' rs -> s_rate r = s_rate r'.
(** every two runs overlap: each starts before the other stops *)
Definition overlapping (rs : list sync) : Prop :=
  ForallOrdPairs (fun r r' : sync => (s_start r < last_time r')%Qc /\ (s_start r' < last_time r)%Qc) rs.
(** [t] is the time of a sample of [r] *)
Definition ticks (r : sync) (t : Qc) : Prop :=
  exists j, j < s_size r /\ sample_time r (Z.of_nat j) = t.

(** wherever one run of each operand overlap, each of these runs has at least
    two samples in the common part, and, if they have the same rate, a sample
    at its beginning *)
Definition compatible (seqs : list sigset) : Prop :=
  forall rs D F, choice seqs rs -> overlapping rs -> span rs D F ->
    (forall r, In r rs -> 2 <= count (within D F) r) /\
    (same_rate rs -> forall r, In r rs -> ticks r D).

Definition disjoint_names (seqs : list sigset) : Prop :=
  forall i j X Y k l l', nth_error seqs i = Some X -> nth_error seqs j = Some Y -> i <> j ->
    reads (ss_tags X) k l -> ~ reads (ss_tags Y) k l'.

(** the run [s] of the merged set [Y] is the common part, from [D] to [F], of
    the runs [rs]: through each tag of an operand it reads the samples of the
    run of this operand inside the window *)
Definition common_part (seqs : list sigset) (rs : list sync) (D F : Qc) (Y : sigset) (s : sync) : Prop :=
  s_start s = D /\ (forall r, In r rs -> s_rate r = s_rate s) /\
  (last_time s <= F)%Qc /\ (F < last_time s + Q2Qc 1 / s_rate s)%Qc /\
  forall i X r k p g, nth_error seqs i = Some X -> nth_error rs i = Some r ->
    reads_seg (ss_tags X) r k p g ->
    exists g', reads_seg (ss_tags Y) s k p g' /\ restricted (within D F) g g'.
End SpecMerge.
