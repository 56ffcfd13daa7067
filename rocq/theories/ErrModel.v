(** Model of the error of a transfer function, src/razorback/mestimator.py:21-48
    [transfer_error], in exact arithmetic: matrices over a closed field with a
    conjugation. The checks of the shapes (mestimator.py:28-33) are replaced by the
    types; [ivs] is the list of rejected windows of each output. *)
From mathcomp Require Import all_ssreflect all_algebra.
From Verif Require Import WlseModel.
Set Implicit Arguments.
Unset Strict Implicit.
Unset Printing Implicit Defensive.
Import GRing.Theory Num.Theory.
Local Open Scope ring_scope.

(** numbers of numpy: a non-negative one divided by zero is infinite or not a number *)
Inductive errv (T : Type) : Type := Finite (x : T) | Infinite | NotNumber.
Arguments Infinite {T}. Arguments NotNumber {T}.

Section Err.
Variable C : numClosedFieldType.

(** division by a non-negative number *)
Definition ediv (a : errv C) (d : C) : errv C :=
  match a with
  | Finite x => if d == 0 then (if x == 0 then NotNumber else Infinite) else Finite (x / d)
  | a => a
  end.
(** product with a non-negative number *)
Definition emul (a : errv C) (d : C) : errv C :=
  match a with
  | Finite x => Finite (x * d)
  | Infinite => if d == 0 then NotNumber else Infinite
  | NotNumber => NotNumber
  end.

(** mestimator.py:39 [inputs.dot(inputs.conj().T)] *)
Definition gram p n (inputs : 'M[C]_(p, n)) : 'M[C]_p := inputs *m herm (@conjC C) inputs.

(** mestimator.py:35-48; [None] stands for the LinAlgError of a singular matrix.
    With fewer windows than inputs (mestimator.py:37 is nan then) the matrix is
    singular. *)
Definition transfer_error m p n (outputs : 'M[C]_(m, n)) (inputs : 'M[C]_(p, n)) (transfer : 'M[C]_(m, p)) (ivs : 'I_m -> seq nat) :
    option ('I_m -> 'I_p -> errv C) :=
  let r := sqrtC (n%:R - p%:R) / n%:R in
  if gram inputs \in unitmx then
    let iiinv j := sqrtC `|invmx (gram inputs) j j| in
    Some (fun i j =>
      let nres := sqrtC (\sum_t `|(row i outputs - row i transfer *m inputs) 0 t| ^+ 2) in
      emul (ediv (ediv (Finite nres) r) (n%:R - (size (ivs i))%:R)) (iiinv j))
  else None.
End Err.
