(** Two sets whose channels can be put in correspondence through their tags. *)
From Verif Require Import Base Arith TagsModel SpecTags.

(** the same names for the same channel numbers *)
Definition tags_same (t t' : tags) : Prop := t_n t = t_n t' /\ forall k l, reads t k l <-> reads t' k l.
(** the channels below [n] carry a tag *)
Definition tagged_below (t : tags) (n : nat) : Prop := forall i, i < n -> exists k l, reads t k l /\ In i l.
(** [t'] can be renumbered as [t]: same names and sizes, as many channels, and
    either nothing to renumber or every channel named and none to be split *)
Definition alignable (t t' : tags) : Prop :=
  same_keys t t' /\ t_n t = t_n t' /\ (tags_same t t' \/ all_tagged t /\ aliases_kept t t').
