(** Specification vocabulary for array proxies. *)
From Verif Require Import Base ProxyModel.

(** a position inside a shape *)
Definition inside (shape idx : list nat) : Prop := Forall2 (fun d i => i < d) shape idx.
(** the same array *)
Definition nd_same {V} (a b : nd V) : Prop :=
  nd_shape a = nd_shape b /\ forall idx, inside (nd_shape a) idx -> nd_get a idx = nd_get b idx.

(** a slice as [extract] receives it: integers with 0 <= start, stop <= d and a
    positive step *)
Definition proper (s : pyslice) (d : nat) : Prop :=
  exists a b c, s = mkSlice (Some a) (Some b) (Some c) /\ (0 <= a <= Z.of_nat d)%Z /\ (0 <= b <= Z.of_nat d)%Z /\ (0 < c)%Z.

(** [extract] reads the array [a] *)
Definition extracts {V} (ok : pyslice -> nat -> Prop) (extract : list pyslice -> res (nd V)) (a : nd V) : Prop :=
  forall sl, Forall2 ok sl (nd_shape a) ->
  exists r r', extract sl = Ok r /\ nd_index a (map IxSlice sl) = Ok r' /\ nd_same r r'.

Definition positive (x : ix) : Prop := match x with IxSlice s => match sl_step s with Some c => (0 < c)%Z | None => True end | IxInt _ => True end.
Definition nonzero (x : ix) : Prop := match x with IxSlice s => sl_step s <> Some 0%Z | IxInt _ => True end.

(** the array with the elements of a list *)
Definition lists {V} (a : nd V) (l : list V) : Prop :=
  nd_shape a = [length l] /\ forall i x, nth_error l i = Some x -> nd_get a [i] = x.
(** a single element *)
Definition scalar {V} (a : nd V) (x : V) : Prop := nd_shape a = [] /\ nd_get a [] = x.

(** ** Samples stored in a file *)
(** a fixed-size encoding *)
Record codec {V} (item : nat) (enc : V -> bytes) (dec : bytes -> V) (good : V -> Prop) : Prop := {
  co_item : 0 < item;
  co_len : forall x, good x -> length (enc x) = item;
  co_dec : forall x, good x -> dec (enc x) = x }.

(** after [offset] bytes the file has the samples [xs], and less than a sample after
    them *)
Definition stored {V} (enc : V -> bytes) (item : nat) (offset : Z) (file : bytes) (xs : list V) : Prop :=
  exists header trailing, file = header ++ concat (map enc xs) ++ trailing /\
  Z.of_nat (length header) = offset /\ length trailing < item.

(** a slice with positive step whose start, clamped into [0, n], is not after its
    stop *)
Definition bound (n z : Z) : Z := if (z <? 0)%Z then Z.max 0 (z + n) else Z.min z n.
Definition forward (s : pyslice) (n : nat) : Prop :=
  match sl_step s with Some c => (0 < c)%Z | None => True end /\
  (match sl_start s with Some a => bound (Z.of_nat n) a | None => 0 end
   <= match sl_stop s with Some b => bound (Z.of_nat n) b | None => Z.of_nat n end)%Z.
