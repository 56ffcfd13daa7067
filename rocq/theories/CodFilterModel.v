(** The determination filter on windows of complex numbers, in exact arithmetic:
    src/razorback/prefilters.py:11-47, the blocks of PrefilterModel.v with the
    coefficient of CodModel.v. *)
From mathcomp Require Import all_ssreflect all_algebra.
From Verif Require Import WlseModel ErrModel CodModel.
From Verif Require Import Base PrefilterModel.
Set Implicit Arguments.
Unset Strict Implicit.
Unset Printing Implicit Defensive.
Import GRing.Theory Num.Theory.
Local Open Scope ring_scope.

Section Filter.
Variables (C : numClosedFieldType) (q : nat).
(** comparison of numbers of numpy: false with nan *)
Definition errv_ltb (a b : errv C) : bool :=
  match a, b with
  | Finite a, Finite b => a < b
  | Finite _, Infinite => true
  | _, _ => false
  end.
(** prefilters.py:39-47, for one block: a singular matrix is LinAlgError *)
Definition block_cod (e : list C) (b : list 'rV[C]_q) : res (errv C) :=
  of_option LinAlgError (coeff_determination (column e) (WlseModel.rows (size e) b)).
(** prefilters.py:26-37 *)
Definition determination (size : nat) (e : list C) (b : list 'rV[C]_q) : res (list (errv C)) :=
  value (Finite 0) block_cod size e b.
(** prefilters.py:21-24 *)
Definition determination_filter (cod_min cod_max : C) (size : nat) (e : list C) (b : list 'rV[C]_q) : res (list Z) :=
  cod_filter (Finite 0) errv_ltb block_cod (Finite cod_min) (Finite cod_max) size e b.
End Filter.
