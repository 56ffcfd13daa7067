(** Vocabulary for file arrays. *)
From Verif Require Import Base PathModel SpecPath.

(** the place that a name stands for in the directory [cwd] *)
Definition at_place (cwd name path : text) : Prop :=
  normal_path path /\
  ((exists r, name = c_slash :: r /\ path = name) \/
   (name <> [] /\ hd_error name <> Some c_slash /\
    ((cwd = [c_slash] /\ path = c_slash :: name) \/
     (exists d c, cwd = d ++ [c] /\ c <> c_slash /\ path = cwd ++ c_slash :: name)))).
