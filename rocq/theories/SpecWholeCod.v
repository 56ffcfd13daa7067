(** Vocabulary for the determination filter of complete estimates: outputs and rows of
    inputs as lists of complex numbers. *)
From Coq Require Import Reals.
From Coquelicot Require Import Complex.
From Verif Require Import Base.

(** the sum of the products of the coefficients [z] with the inputs of a row *)
Fixpoint predicted (z row : list C) : C :=
  match z, row with
  | v :: z, x :: row => Cplus (Cmult v x) (predicted z row)
  | _, _ => RtoC 0
  end.
Definition sum_R (l : list R) : R := fold_right Rplus R0 l.
Definition modulus2 (x : C) : R := Rmult (Cmod x) (Cmod x).
Definition power (e : list C) : R := sum_R (map modulus2 e).
(** what is left of the output when it is predicted with [z] *)
Definition left_over (e : list C) (b : list (list C)) (z : list C) : R :=
  sum_R (map (fun p => modulus2 (Cminus (fst p) (predicted z (snd p)))) (combine e b)).
(** [d ^ 2] is the part of the power explained by the best [q] coefficients *)
Definition best_part (q : nat) (e : list C) (b : list (list C)) (d : R) : Prop :=
  Rle 0 d /\ exists least, (forall z, length z = q -> Rle least (left_over e b z)) /\
    (exists z, length z = q /\ least = left_over e b z) /\
    Rmult (Rmult d d) (power e) = Rminus (power e) least.
(** some value is not 0 *)
Definition heard (e : list C) : Prop := exists x, In x e /\ x <> RtoC 0.
(** no input is a combination of the others *)
Definition free_rows (q : nat) (b : list (list C)) : Prop :=
  forall v, length v = q -> (forall row, In row b -> predicted v row = RtoC 0) -> Forall (fun x => x = RtoC 0) v.
