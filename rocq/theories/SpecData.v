(** Specification vocabulary for data files and commands. *)
From Verif Require Import Base PathModel DataModel.

(** the text reads as these components: they are separated by slashes, those that are
    empty or "." do not count *)
Definition plain (c : text) : Prop := ~ In "/"%char c.
Definition idle (c : text) : Prop := c = [] \/ c = ["."%char].
Inductive reads : text -> list text -> Prop :=
| reads_idle c : plain c -> idle c -> reads c []
| reads_last c : plain c -> ~ idle c -> reads c [c]
| reads_skip c s l : plain c -> idle c -> reads s l -> reads (c ++ "/"%char :: s) l
| reads_cons c s l : plain c -> ~ idle c -> reads s l -> reads (c ++ "/"%char :: s) (c :: l).
(** a text that starts with a slash is an absolute path *)
Definition means (s : text) (p : path) : Prop :=
  reads s (p_parts p) /\ (p_abs p = true <-> exists r, s = "/"%char :: r).

(** everything is inside directories *)
Definition consistent (fs : fsys) : Prop :=
  forall a parts n, fs (mkPath a parts) <> None -> n < length parts -> fs (mkPath a (firstn n parts)) = Some true.

(** [p] is [q] or a directory above *)
Definition above (p q : path) : Prop := p_abs p = p_abs q /\ exists rest, p_parts q = p_parts p ++ rest.

(** a name that designates something below a directory *)
Definition below_name (s : text) : Prop := p_abs (parse_path s) = false /\ p_parts (parse_path s) <> [].

(** the last entry point named [n], which loads as [c] *)
Definition last_entry {C} (entries : list (string * res C)) (n : string) (c : C) : Prop :=
  exists before after, entries = before ++ (n, Ok c) :: after /\ ~ In n (map fst after).
