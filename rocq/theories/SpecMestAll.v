(** Vocabulary of C41_outcome: the outputs one after the other. *)
From Verif Require Import Base Arith MestModel SpecMest.

(** the initial guesses, one per output *)
Definition guesses {Z0} (init : option (list (option Z0))) (p : nat) (zs : list (option Z0)) : Prop :=
  length zs = p /\ forall i z, nth_error zs i = Some z -> guess init i z.
(** no more guesses than outputs *)
Definition guesses_fit {Z0} (init : option (list (option Z0))) (p : nat) : Prop :=
  match init with None => True | Some l => length l = p end.

(** the initial invalid indices, one list per output *)
Definition givens (iv : ivarg) (p : nat) (ls : list (list Z)) : Prop :=
  length ls = p /\ forall i l, nth_error ls i = Some l -> given iv i l.
Definition givens_fit (iv : ivarg) (p : nat) : Prop :=
  match iv with IvEach [] => True | IvEach ll => length ll = p | _ => True end.

(** The outputs are estimated in turn on the rows of [b]; the state of the
    weight functions goes from one to the next. *)
Inductive all_steps {k : Kern} {St : Type} (o : opts k) (b : list (kB k)) (ws : list (option (wfun k St))) :
  list (list (kE k)) -> list (option (kZ k)) -> list (list Z) -> St -> list (option (kZ k) * list Z) -> St -> Prop :=
| all_none st : all_steps o b ws [] [] [] st [] st
| all_next e es z0 zs iv ivs st z left st1 iv' rs st2 :
    length e = length b ->
    steps o e b (seq 0 (length b)) z0 iv ws st z left st1 ->
    complement (length b) left iv' ->
    all_steps o b ws es zs ivs st1 rs st2 ->
    all_steps o b ws (e :: es) (z0 :: zs) (iv :: ivs) st ((z, iv') :: rs) st2.
