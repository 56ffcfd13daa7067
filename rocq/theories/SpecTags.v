(** Specification vocabulary for tags, independent of the functions of the model
    (only the state type [tags] and the user values [raw] are shared). *)
From Verif Require Import Base TagsModel.

Definition letters : list ascii :=
  list_ascii_of_string "ABCDEFGHIJKLMNOPQRSTUVWXYZabcdefghijklmnopqrstuvwxyz".

Definition begins_with_letter (k : string) : Prop :=
  exists c k', k = String c k' /\ In c letters.

(** the tuple written by the user *)
Definition entries (v : raw) : list Z :=
  match v with RInt z => [z] | RTuple l => l | RList l => l end.

(** legal name and value for [n] channels *)
Definition legal (n : nat) (k : string) (v : raw) : Prop :=
  begins_with_letter k /\ entries v <> [] /\
  forall z, In z (entries v) -> (0 <= z < Z.of_nat n)%Z.

(** association found in a tag table *)
Definition reads (t : tags) (k : string) (l : list nat) : Prop := In (k, l) (t_dict t).

Record tags_valid (t : tags) : Prop := {
  tv_names : forall k l, reads t k l -> begins_with_letter k;
  tv_nonempty : forall k l, reads t k l -> l <> [];
  tv_range : forall k l c, reads t k l -> In c l -> c < t_n t;
  tv_unique : NoDup (map fst (t_dict t))
}.

(** names that collide with the parameters of the constructor *)
Definition illegal_kw (k : string) : Prop := k = "n"%string \/ k = "self"%string.

(** a dictionary of tags legal for [n] channels *)
Definition tags_legal (n : nat) (d : dict raw) : Prop :=
  forall k v, In (k, v) d -> ~ illegal_kw k /\ legal n k v.

(** same names with the same sizes *)
Definition same_keys (t t' : tags) : Prop :=
  forall k n, (exists l, reads t k l /\ length l = n) <-> (exists l, reads t' k l /\ length l = n).

(** every channel carries a tag *)
Definition all_tagged (t : tags) : Prop := forall i, i < t_n t -> exists k l, reads t k l /\ In i l.

(** where the tags [t] designate one channel twice, so do the tags [t'] *)
Definition aliases_kept (t t' : tags) : Prop :=
  forall k l p k2 l2 p2 c m m2, reads t k l -> reads t k2 l2 -> nth_error l p = Some c -> nth_error l2 p2 = Some c ->
    reads t' k m -> reads t' k2 m2 -> nth_error m p = nth_error m2 p2.
