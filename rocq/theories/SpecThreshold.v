(** The rows rejected by one evaluation of the weights. *)
From Coq Require Import Reals.
From Verif Require Import Base RobustModel.
Open Scope R_scope.

(** a finite weight of modulus at most [eps]: nan and infinities are none *)
Definition at_most (eps : R) (x : ext) : Prop := exists y, x = Fin y /\ Rabs y <= eps.

(** [iv'] is the increasing list of the rows that were rejected ([iv]) or whose
    weight is at most [eps]; without weights it is [iv] *)
Definition rejects (eps : R) (iv : list Z) (w : option (list ext)) (iv' : list Z) : Prop :=
  match w with
  | None => iv' = iv
  | Some w => StronglySorted Z.lt iv' /\ (forall i, In i iv' -> (0 <= i < Z.of_nat (length w))%Z) /\
      forall n x, nth_error w n = Some x -> (In (Z.of_nat n) iv' <-> In (Z.of_nat n) iv \/ at_most eps x)
  end.
