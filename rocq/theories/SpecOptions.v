(** Vocabulary for options. *)
From Coq Require Import Reals.
From Coquelicot Require Import Complex.
From Verif Require Import Base Arith FourierModel WholeModel OptionModel.

(** the value of an option: the given one, if any, or the default *)
Definition chosen {V} (given : option (list (string * V))) (key : string) (default v : V) : Prop :=
  match given with
  | None => v = default
  | Some d => (In (key, v) d) \/ ((forall v', ~ In (key, v') d) /\ v = default)
  end.
(** the keys of a dictionary are different *)
Definition proper {V} (given : option (list (string * V))) : Prop := match given with Some d => NoDup (map fst d) | None => True end.
Definition known_key (k : string) : Prop := k = "Nper"%string \/ k = "overlap"%string \/ k = "window"%string \/ k = "compute"%string.
Definition only_known {V} (given : option (list (string * V))) : Prop := match given with Some d => forall k v, In (k, v) d -> known_key k | None => True end.
(** an option that the Fourier transform does not know, or of a wrong kind *)
Definition unusable (given : option (list (string * optv))) : Prop :=
  exists d k v, given = Some d /\ In (k, v) d /\
  (~ known_key k \/ ((k = "Nper"%string \/ k = "overlap"%string) /\ ~ exists x, v = ONum x) \/ (k = "window"%string /\ ~ exists w, v = OWin w)).
