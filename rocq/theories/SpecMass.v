(** Specification vocabulary for the runs over combinations of remotes. *)
From Verif Require Import Base Arith MestModel UtilsModel.

(** the combination that uses the remotes [e] with [used e] *)
Definition subset (n : nat) (used : nat -> bool) : list (option nat) :=
  map (fun e => if used e then Some e else None) (seq 0 n).
(** the names of the remotes used, in their order; [e] is the number of the first name *)
Fixpoint picked (used : nat -> bool) (e : nat) (names : list string) : list string :=
  match names with
  | [] => []
  | t :: names => if used e then t :: picked used (S e) names else picked used (S e) names
  end.
(** the combination number [i]: the binary digits of [i], the last remote has the lowest *)
Definition digits (n i : nat) (e : nat) : bool := Nat.testbit i (n - 1 - e).

(** the options [b] are the options [a] but for the remote, which is [r] *)
Definition but_remote {k : Kern} {St : Type} (a b : @iargs k St) (r : option string) : Prop :=
  ia_remote b = r /\ ia_weights b = ia_weights a /\ ia_prefilter b = ia_prefilter a /\ ia_remote_weights b = ia_remote_weights a /\
  ia_remote_prefilter b = ia_remote_prefilter a /\ ia_elec b = ia_elec a /\ ia_mag b = ia_mag a /\ ia_opts b = ia_opts a /\
  ia_real_pb b = ia_real_pb a /\ ia_silent b = ia_silent a /\ ia_keep b = ia_keep a.

(** the steps of a list are done one after the other, from the state left by the
    previous one; the first that fails ends the run *)
Inductive in_turn {St T R : Type} (step : T -> St -> res R -> St -> Prop) : list T -> St -> res (list R) -> St -> Prop :=
| it_end : forall s, in_turn step [] s (Ok []) s
| it_fails : forall x l s e s', step x s (Err e) s' -> in_turn step (x :: l) s (Err e) s'
| it_ok : forall x l s r s1 rs s', step x s (Ok r) s1 -> in_turn step l s1 (Ok rs) s' -> in_turn step (x :: l) s (Ok (r :: rs)) s'
| it_later : forall x l s r s1 e s', step x s (Ok r) s1 -> in_turn step l s1 (Err e) s' -> in_turn step (x :: l) s (Err e) s'.
