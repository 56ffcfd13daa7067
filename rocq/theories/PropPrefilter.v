(** The determination filter (C53, C54). The coefficient of a block is any function
    that may fail. *)
From Coq Require Import QArith Qcanon.
From Verif Require Import Base BaseLemmas Arith PrefilterModel SpecPrefilter PrefilterProofs.
Open Scope nat_scope.

(** ** C53 *)
Theorem C53_blocks : forall (N E B : Type) (zero : N) (cod : list E -> list B -> res N) size e b c,
  0 < size -> length b = length e -> value zero cod size e b = Ok c ->
  length c = length e /\
  forall i, i < length e ->
  exists lo hi v, in_block size (length e) i lo hi /\ cod (rows lo hi e) (rows lo hi b) = Ok v /\ nth_error c i = Some v.
Proof. intros N E B zero cod. exact (value_spec zero cod). Qed.
Print Assumptions C53_blocks.

(** every row is in exactly one block, and all rows of a block are *)
Theorem C53_partition : forall size n i, 0 < size -> i < n ->
  exists lo hi, in_block size n i lo hi /\
  (forall lo' hi', in_block size n i lo' hi' -> lo' = lo /\ hi' = hi) /\
  (forall j, lo <= j < hi -> in_block size n j lo hi) /\
  hi <= n /\ (hi < n -> hi = lo + size) /\ (hi = n -> hi < lo + 2 * size /\ (n < 2 * size -> lo = 0) /\ (size <= n -> lo + size <= hi)).
Proof.
  intros size n i Hs Hi. destruct (in_block_ex size n i Hs Hi) as (lo & hi & H). exists lo, hi. split; [exact H|].
  split; [intros lo' hi' H'; destruct (in_block_fun size n i lo' hi' lo hi Hs H' H); auto|].
  destruct H as (Hb & (q & ->) & H). split; [intros j Hj; split; [exact Hj|split; [exists q; reflexivity|exact H]]|].
  destruct H as [[-> H]|[-> [H1 H2]]]; repeat split; try lia.
  intros H3. destruct H2 as [H2|H2]; [lia|]. destruct q; nia.
Qed.
Print Assumptions C53_partition.

(** it succeeds as soon as every block does *)
Theorem C53_succeeds : forall (N E B : Type) (zero : N) (cod : list E -> list B -> res N) size e b,
  0 < size -> length b = length e -> e <> [] ->
  (forall i lo hi, in_block size (length e) i lo hi -> exists v, cod (rows lo hi e) (rows lo hi b) = Ok v) ->
  exists c, value zero cod size e b = Ok c.
Proof. intros N E B zero cod. exact (value_ok zero cod). Qed.
Print Assumptions C53_succeeds.

(** it fails as one of its blocks does *)
Theorem C53_fails : forall (N E B : Type) (zero : N) (cod : list E -> list B -> res N) size e b x,
  0 < size -> length b = length e -> e <> [] -> value zero cod size e b = Err x ->
  exists i lo hi, in_block size (length e) i lo hi /\ cod (rows lo hi e) (rows lo hi b) = Err x.
Proof. intros N E B zero cod. exact (value_err zero cod). Qed.
Print Assumptions C53_fails.
Theorem C53_no_size : forall (N E B : Type) (zero : N) (ltb : N -> N -> bool) (cod : list E -> list B -> res N) cmin cmax e b,
  value zero cod 0 e b = Err ZeroDivisionError /\ cod_filter zero ltb cod cmin cmax 0 e b = Err ZeroDivisionError.
Proof. intros. split; reflexivity. Qed.
Print Assumptions C53_no_size.

(** the number of rows of a block as its "coefficient": blocks of 3, 3 and 5 rows *)
Example C53_nonvacuous :
  value (nzero QA) (fun (e : list nat) (b : list nat) => Ok (nofZ QA (Z.of_nat (length e)))) 3 (seq 0 11) (seq 0 11)
  = Ok (map (nofZ QA) [3; 3; 3; 3; 3; 3; 5; 5; 5; 5; 5]%Z).
Proof. vm_compute. reflexivity. Qed.

(** ** C54 *)
Theorem C54_rejected : forall (N E B : Type) (zero : N) (ltb : N -> N -> bool) (cod : list E -> list B -> res N) cmin cmax size e b iv,
  0 < size -> length b = length e -> cod_filter zero ltb cod cmin cmax size e b = Ok iv ->
  StronglySorted Z.lt iv /\
  forall j, In j iv <->
  exists i lo hi v, j = Z.of_nat i /\ in_block size (length e) i lo hi /\ cod (rows lo hi e) (rows lo hi b) = Ok v /\
                    (ltb v cmin = true \/ ltb cmax v = true).
Proof. intros N E B zero ltb cod. exact (filter_spec N E B zero ltb cod). Qed.
Print Assumptions C54_rejected.

Example C54_nonvacuous :
  cod_filter (nzero QA) (nltb QA) (fun (e : list nat) (b : list nat) => Ok (nofZ QA (Z.of_nat (length e)))) (nofZ QA 0) (nofZ QA 4) 3 (seq 0 11) (seq 0 11)
  = Ok [6; 7; 8; 9; 10]%Z.
Proof. vm_compute. reflexivity. Qed.
