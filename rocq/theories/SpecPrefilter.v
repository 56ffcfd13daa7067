(** Specification vocabulary for the determination filter: the blocks of rows. *)
From Verif Require Import Base.

(** the [i]-th row of [n] lies in the block of the rows [lo .. hi-1]; blocks have
    [size] rows, except the last one, which takes the remaining rows as well *)
Definition in_block (size n i lo hi : nat) : Prop :=
  lo <= i < hi /\ (exists q, lo = q * size) /\
  ((hi = lo + size /\ hi + size <= n) \/ (hi = n /\ n < lo + 2 * size /\ (lo = 0 \/ lo + size <= n))).

(** rows [lo .. hi-1] *)
Definition rows {T} (lo hi : nat) (l : list T) : list T := firstn (hi - lo) (skipn lo l).
