(** Model of the coefficient of determination of one block of rows,
    src/razorback/prefilters.py:39-47 [coeff_determination], in exact arithmetic.
    [None] stands for the LinAlgError of a singular matrix. *)
From mathcomp Require Import all_ssreflect all_algebra.
From Verif Require Import WlseModel ErrModel.
Set Implicit Arguments.
Unset Strict Implicit.
Unset Printing Implicit Defensive.
Import GRing.Theory Num.Theory.
Local Open Scope ring_scope.

Section Cod.
Variable C : numClosedFieldType.
(** prefilters.py:45 [norm2] *)
Definition norm2 n (x : 'cV[C]_n) : C := \sum_i `|x i 0| ^+ 2.
(** [A] and [b] of prefilters.py:41-42 are the normal equations without weights;
    [np.sqrt(1 - norm2(residual) / norm2(x))]: nan when the quotient is not a finite
    number *)
Definition coeff_determination n q (x : 'cV[C]_n) (y : 'M[C]_(n, q)) : option (errv C) :=
  if wlse (@conjC C) x y None is Some z then
    Some (if ediv (Finite (norm2 (y *m z - x))) (norm2 x) is Finite r then Finite (sqrtC (1 - r)) else NotNumber)
  else None.
End Cod.
