(** Specification vocabulary for linear relations between lines of samples. *)
From Coq Require Import Reals.
From Coquelicot Require Import Complex.
From Verif Require Import Base.
Open Scope R_scope.

Definition zipw {A B D} (f : A -> B -> D) (l : list A) (l' : list B) : list D := map (fun p => f (fst p) (snd p)) (combine l l').

(** the samples [sum_j z_j * input_j] *)
Definition prediction {T} (add mul : T -> T -> T) (zero : T) (n : nat) (z : list T) (inputs : list (list T)) : list T :=
  fold_right (fun p acc => zipw add (map (mul (fst p)) (snd p)) acc) (repeat zero n) (combine z inputs).

(** the sum of the squared magnitudes *)
Definition sumsq {T} (abs : T -> R) (r : list T) : R := fold_right Rplus 0 (map (fun x => abs x ^ 2) r).
