(** Facts about Python slices. *)
From Verif Require Import Base BaseLemmas.

(** position designated by a bound of a slice with positive step *)
Lemma zrange_In a b c z : (c <> 0)%Z ->
  In z (zrange a b c) ->
  ((0 < c)%Z /\ (a <= z < b)%Z /\ (exists k, z = a + k * c)%Z) \/
  ((c < 0)%Z /\ (b < z <= a)%Z /\ (exists k, z = a + k * c)%Z).
Proof.
  intros Hc H. unfold zrange in H. apply in_map_iff in H as (k & <- & Hk). apply in_seq in Hk.
  unfold range_len in Hk. destruct (Z.ltb_spec 0 c).
  - left. assert (Hk' : (Z.of_nat k < (b - a + c - 1) / c)%Z).
    { destruct (Z_lt_le_dec ((b - a + c - 1) / c) 0); lia. }
    assert ((Z.of_nat k + 1) * c <= b - a + c - 1)%Z.
    { etransitivity; [|apply Z.mul_div_le with (b := c); lia]. nia. }
    split; [lia|]. split; [nia|]. exists (Z.of_nat k); reflexivity.
  - right. assert (Hc' : (0 < - c)%Z) by lia.
    assert (Hk' : (Z.of_nat k < (a - b - c - 1) / (- c))%Z).
    { destruct (Z_lt_le_dec ((a - b - c - 1) / (- c)) 0); lia. }
    assert ((Z.of_nat k + 1) * (- c) <= a - b - c - 1)%Z.
    { etransitivity; [|apply Z.mul_div_le with (b := (- c)%Z); lia]. nia. }
    split; [lia|]. split; [nia|]. exists (Z.of_nat k); reflexivity.
Qed.

Lemma slice_indices_bounds sl len a b c : (0 <= len)%Z -> slice_indices sl len = Ok (a, b, c) ->
  (c <> 0)%Z /\
  ((0 < c)%Z -> (0 <= a <= len)%Z /\ (0 <= b <= len)%Z) /\
  ((c < 0)%Z -> (-1 <= a < len)%Z \/ (a = -1)%Z /\ (len = 0)%Z) /\
  ((c < 0)%Z -> (-1 <= b < len)%Z \/ (b = -1)%Z).
Proof.
  intros Hl. unfold slice_indices.
  set (step := match sl_step sl with Some s => s | None => 1%Z end).
  destruct (Z.eqb_spec step 0); [discriminate|].
  intros H. injection H as <- <- <-.
  split; [assumption|].
  destruct (Z.ltb_spec step 0); (split; [intros; try lia|split; intros; try lia]).
  - destruct (sl_start sl) as [i|]; [|lia].
    destruct (Z.ltb_spec i 0); [destruct (Z.ltb_spec (i + len) 0); lia|destruct (Z.leb_spec len i); lia].
  - destruct (sl_stop sl) as [i|]; [|lia].
    destruct (Z.ltb_spec i 0); [destruct (Z.ltb_spec (i + len) 0); lia|destruct (Z.leb_spec len i); lia].
  - destruct (sl_start sl) as [i|], (sl_stop sl) as [j|];
    repeat match goal with |- context [(?x <? ?y)%Z] => destruct (Z.ltb_spec x y)
           | |- context [(?x <=? ?y)%Z] => destruct (Z.leb_spec x y) end; lia.
Qed.

Lemma slice_range_bounds sl n l : slice_range sl n = Ok l -> forall z, In z l -> (0 <= z < Z.of_nat n)%Z.
Proof.
  unfold slice_range. intros H z Hz. apply bind_ok in H as ([[a b] c] & Hs & H). injection H as <-.
  apply slice_indices_bounds in Hs as (Hc & Hp & Hn1 & Hn2); [|lia].
  apply zrange_In in Hz as [(Hc' & Hz & _)|(Hc' & Hz & _)]; [| |exact Hc].
  - specialize (Hp Hc'). lia.
  - specialize (Hn1 Hc'). specialize (Hn2 Hc'). lia.
Qed.

Lemma slice_range_nat sl n l : slice_range sl n = Ok l -> l = map Z.of_nat (map Z.to_nat l).
Proof.
  intros H. rewrite map_map. rewrite <- (map_id l) at 1. apply map_ext_in.
  intros z Hz. pose proof (slice_range_bounds _ _ _ H z Hz). lia.
Qed.

Lemma slice_range_full n : slice_range full_slice n = Ok (map Z.of_nat (seq 0 n)).
Proof.
  unfold slice_range, full_slice, slice_indices. simpl. f_equal. unfold zrange, range_len. simpl.
  replace (Z.to_nat ((Z.of_nat n - 0 + 1 - 1) / 1)) with n by (rewrite Z.div_1_r; lia).
  apply map_ext. intros; lia.
Qed.

(** slices with a positive step, from the documentation: positions
    [a, a+c, a+2c, ...] below [b] where [a] and [b] are clamped into [0, len] *)
Definition clamp_bound (len z : Z) : Z := (if z <? 0 then Z.max 0 (z + len) else Z.min z len)%Z.

Lemma slice_indices_pos a b len : (0 <= len)%Z ->
  slice_indices (mkSlice (Some a) (Some b) None) len = Ok (clamp_bound len a, clamp_bound len b, 1%Z).
Proof.
  intros Hl. unfold slice_indices, clamp_bound. simpl.
  f_equal. f_equal. f_equal.
  - destruct (Z.ltb_spec a 0); [destruct (Z.ltb_spec (a + len) 0); lia|destruct (Z.leb_spec len a); lia].
  - destruct (Z.ltb_spec b 0); [destruct (Z.ltb_spec (b + len) 0); lia|destruct (Z.leb_spec len b); lia].
Qed.

(** contiguous ranges *)
Lemma zrange_1 a b : zrange a b 1 = map (fun k => (a + Z.of_nat k)%Z) (seq 0 (Z.to_nat (b - a))).
Proof.
  unfold zrange, range_len. simpl. replace ((b - a + 1 - 1) / 1)%Z with (b - a)%Z by (rewrite Z.div_1_r; lia).
  apply map_ext. intros; lia.
Qed.

Lemma py_slice1_nth {A} (l : list A) i j k : (0 <= i)%Z -> (0 <= j)%Z ->
  nth_error (py_slice1 l i j) k =
  if (i + Z.of_nat k <? j)%Z then nth_error l (Z.to_nat i + k) else None.
Proof.
  intros Hi Hj. unfold py_slice1, norm_index.
  destruct (Z.ltb_spec i 0); [lia|]. destruct (Z.ltb_spec j 0); [lia|].
  set (n := Z.of_nat (length l)).
  assert (Hn : forall m k (x : list A), nth_error (firstn m x) k = if k <? m then nth_error x k else None).
  { clear. induction m as [|m IH]; intros k x; simpl.
    - destruct k; reflexivity.
    - destruct x as [|y x]; simpl; [destruct k; simpl; [reflexivity|destruct (S k <? S m); reflexivity]|].
      destruct k as [|k]; [reflexivity|]. simpl. rewrite IH. reflexivity. }
  assert (Hs : forall m k (x : list A), nth_error (skipn m x) k = nth_error x (m + k)).
  { clear. induction m as [|m IH]; intros k x; simpl; [reflexivity|]. destruct x; [destruct k; reflexivity|apply IH]. }
  rewrite Hn, Hs.
  destruct (Z.ltb_spec (i + Z.of_nat k) j) as [E|E].
  - destruct (Z_le_gt_dec n i).
    + replace (Z.min i n) with n by lia. replace (Z.min j n) with n by lia.
      rewrite Nat.sub_diag. simpl.
      symmetry. apply nth_error_None. unfold n in *; lia.
    + replace (Z.min i n) with i by lia.
      destruct (Nat.ltb_spec k (Z.to_nat (Z.min j n) - Z.to_nat i)); [reflexivity|].
      symmetry. apply nth_error_None. unfold n in *; lia.
  - destruct (Nat.ltb_spec k (Z.to_nat (Z.min j n) - Z.to_nat (Z.min i n))); [|reflexivity]. lia.
Qed.

Lemma py_slice1_length {A} (l : list A) i j : (0 <= i)%Z -> (0 <= j)%Z ->
  length (py_slice1 l i j) = Z.to_nat (Z.min j (Z.of_nat (length l)) - i).
Proof.
  intros Hi Hj. unfold py_slice1, norm_index.
  destruct (Z.ltb_spec i 0); [lia|]. destruct (Z.ltb_spec j 0); [lia|].
  rewrite firstn_length, skipn_length. lia.
Qed.
