(** Vocabulary for the real formulation with the estimation: each complex value has
    become two real ones. *)
From Verif Require Import Base Arith MestModel.
Open Scope Z_scope.

(** the real and the imaginary part of each of the values at the positions [l] *)
Definition both_parts (l : list Z) : list Z := flat_map (fun i => [2 * i; 2 * i + 1]) l.

Definition non_negative (l : list Z) : Prop := forall i, In i l -> 0 <= i.

(** [iv'] leaves out of the real problem both parts of what [iv] leaves out of the complex one *)
Definition leaves_out_both (iv iv' : ivarg) : Prop :=
  match iv with
  | IvNone => iv' = IvNone
  | IvFlat l => non_negative l /\ iv' = IvFlat (both_parts l)
  | IvArray _ => False
  | IvEach ll => Forall non_negative ll /\ iv' = IvEach (map both_parts ll)
  end.
