(** Specification vocabulary for the determination filter on complex windows. *)
From mathcomp Require Import all_ssreflect all_algebra.
From Verif Require Import Base.
Set Implicit Arguments.
Unset Strict Implicit.
Unset Printing Implicit Defensive.
Import GRing.Theory Num.Theory.
Local Open Scope ring_scope.

Section Spec.
Variables (C : numClosedFieldType) (q : nat).
Implicit Types (e : list C) (b : list 'rV[C]_q).
(** the energy of the output *)
Definition energy e : C := \sum_(x <- e) `|x| ^+ 2.
(** what is left of it when the output is predicted by the transfer function [z] *)
Definition misfit e b (z : 'cV[C]_q) : C := \sum_(p <- combine e b) `|p.1 - (p.2 *m z) 0 0| ^+ 2.
(** [d ^ 2] is the part of the energy that the best transfer function explains *)
Definition explains e b (d : C) : Prop :=
  0 <= d /\ exists least, (forall z, least <= misfit e b z) /\ (exists z, least = misfit e b z) /\
  d ^+ 2 * energy e = energy e - least.
(** no input is a combination of the others *)
Definition independent b : Prop := forall v : 'cV[C]_q, (forall r, List.In r b -> (r *m v) 0 0 = 0) -> v = 0.
(** some output is not zero *)
Definition not_silent e : Prop := exists x, List.In x e /\ x <> 0.
End Spec.
