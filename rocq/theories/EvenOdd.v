(** The even and the odd positions of an array of length [2 * q]. *)
From mathcomp Require Import all_ssreflect all_algebra.
Set Implicit Arguments.
Unset Strict Implicit.
Unset Printing Implicit Defensive.

(** the positions [0::2] and [1::2], utils.py:399-402, 409-410, 415 *)
Lemma even_bound q (j : 'I_q) : 2 * j < 2 * q. Proof. by rewrite ltn_pmul2l. Qed.
Lemma odd_bound q (j : 'I_q) : (2 * j).+1 < 2 * q.
Proof. by have := ltn_ord j; rewrite -(leq_pmul2l (m := 2)) // mulnS. Qed.
Definition ord_even q (j : 'I_q) : 'I_(2 * q) := Ordinal (even_bound j).
Definition ord_odd q (j : 'I_q) : 'I_(2 * q) := Ordinal (odd_bound j).
