(** Specification vocabulary for the completeness of packing. *)
From Coq Require Import QArith Qcanon.
From Verif Require Import Base Arith TagsModel SyncModel SetModel SpecTags SpecSet QcLemmas SpecTime SpecConsec InvModel SpecInv.
Open Scope nat_scope.

Section SpecPack.
Context {V K : Type}.
Notation sync := (sync QA V K).
Notation sigset := (@sigset QA V K).
Notation seg := (@seg QA V K).

(** the segment [g] has no sample after [D] missing at its beginning, nor before [F] at its end *)
Definition spans (D F : Qc) (g : seg) : Prop := (g_start g <= D)%Qc /\ (F <= seg_time g (length (g_vals g) - 1))%Qc.

(** through every tag of the inventory some member records, at the rate [f], a segment from [D] to [F] *)
Definition all_there (inv : list sigset) (f D F : Qc) : Prop :=
  forall X0 k n, In X0 inv -> tag_size X0 k n ->
  exists X p g, In X inv /\ records X k p g /\ g_rate g = f /\ spans D F g.

(** the value [v] of time [t] is in [Y] under position [p] of the tag [k], at the rate [f], displaced by merged gaps at most *)
Definition found (Y : sigset) (k : string) (p : nat) (f t : Qc) (v : V) : Prop :=
  exists g' j n, records Y k p g' /\ g_rate g' = f /\ nth_error (g_vals g') j = Some v /\ n <= j /\
    abs_le (seg_time g' j - t)%Qc (ZtoQc (Z.of_nat n) * drift f)%Qc.

(** around the time [t], between two samples of one member, every tag of the inventory is recorded at the rate [f] *)
Definition fully_recorded (inv : list sigset) (f t : Qc) : Prop :=
  exists X k p g i j, In X inv /\ records X k p g /\ g_rate g = f /\ i < length (g_vals g) /\ j < length (g_vals g) /\
    (seg_time g i < t)%Qc /\ (t < seg_time g j)%Qc /\ all_there inv f (seg_time g i) (seg_time g j).

(** the segment [g] has samples before and after the time [t] *)
Definition straddles (g : seg) (t : Qc) : Prop := (g_start g < t)%Qc /\ (t < seg_time g (length (g_vals g) - 1))%Qc.

(** [X] and [X'] are at two different places of the list *)
Definition two_places (inv : list sigset) (X X' : sigset) : Prop :=
  exists a b, nth_error inv a = Some X /\ nth_error inv b = Some X' /\ a <> b.

(** the member [X] has a run at the rate [f] *)
Definition has_rate (f : Qc) (X : sigset) : Prop := exists s, In s (ss_signals X) /\ s_rate s = f.
(** the same members, among those with a run at the rate [f], have the tags [t] and [u] *)
Definition same_members (inv : list sigset) (f : Qc) (t u : string) : Prop :=
  forall X, In X inv -> has_rate f X -> (exists n, tag_size X t n) <-> (exists n, tag_size X u n).

(** no tag without channel, and no tag lies within the channels of one of [tags], except itself *)
Record unaliased (tags : list string) (inv : list sigset) : Prop := {
  u_full : forall X k, In X inv -> ~ reads (ss_tags X) k [];
  u_alone : forall X k l t lt, In X inv -> In t tags -> reads (ss_tags X) t lt -> reads (ss_tags X) k l -> incl l lt -> k = t
}.

(** the channels of the tag [k] of [X] all belong to tags whose names match one of the patterns *)
Definition carried (pats : list string) (X : sigset) (k : string) : Prop :=
  exists l, reads (ss_tags X) k l /\ forall i, In i l -> exists t lt, (exists p, In p pats /\ shell_match p t) /\ reads (ss_tags X) t lt /\ In i lt.

(** every run starts at a multiple of its sampling period *)
Definition on_grid (X : sigset) : Prop :=
  forall s, In s (ss_signals X) -> exists m : Z, s_start s = (ZtoQc m / s_rate s)%Qc.
End SpecPack.
