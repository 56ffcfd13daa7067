(** Specification vocabulary for the operations on tags (C92). *)
From Verif Require Import Base TagsModel SpecTags.

(** a tag of this name exists *)
Definition has_tag (t : tags) (k : string) : Prop := exists l, reads t k l.

(** [t'] is [t] without the tag [k], the others in the same order *)
Definition without (t : tags) (k : string) (t' : tags) : Prop :=
  t_n t' = t_n t /\ exists a l b, t_dict t = a ++ (k, l) :: b /\ t_dict t' = a ++ b.

(** the assignments [t[k] = v] of a list of items, in this order *)
Definition assignments (d : dict raw) : list top := map (fun kv => TSet (fst kv) (snd kv)) d.
