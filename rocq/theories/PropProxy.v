(** Array proxies and binary files: properties C67 - C69. *)
From Verif Require Import Base ProxyModel SpecProxy ProxyProofs BinProofs AtsModel SpecAts AtsProofs.
Open Scope nat_scope.

(** C67: if [extract] reads the array on the slices it is called with, indexing the
    proxy is indexing the array: same shape, same elements, and it raises exactly
    when the array does, the same exception unless some step is 0. *)
Theorem C67_indexing :
  forall (V : Type) (extract : list pyslice -> res (nd V)) (a : nd V) (index : list ix),
  nd_shape a <> [] ->
  extracts (fun s d => proper s d \/ s = full_slice) extract a ->
  match proxy_get extract (nd_shape a) index with
  | Ok r => exists r', nd_index a index = Ok r' /\ nd_same r r'
  | Err e => exists e', nd_index a index = Err e' /\ (Forall nonzero index -> e' = e)
  end.
Proof. exact @proxy_law. Qed.
Print Assumptions C67_indexing.

(** C67: with positive steps only, [extract] is called with proper slices only:
    integers between 0 and the dimension and a positive step. *)
Theorem C67_positive_steps :
  forall (V : Type) (extract : list pyslice -> res (nd V)) (a : nd V) (index : list ix),
  nd_shape a <> [] -> extracts proper extract a ->
  length index = length (nd_shape a) -> Forall positive index ->
  match proxy_get extract (nd_shape a) index with
  | Ok r => exists r', nd_index a index = Ok r' /\ nd_same r r'
  | Err e => nd_index a index = Err e
  end.
Proof. exact @extract_positive. Qed.
Print Assumptions C67_positive_steps.

(** C67: the law fails for a proxy without dimension: the array has its element. *)
Theorem C67_no_dimension_refuted :
  exists (a : nd Z) (extract : list pyslice -> res (nd Z)),
  extracts (fun s d => proper s d \/ s = full_slice) extract a /\
  (exists r, nd_index a [] = Ok r /\ scalar r 5%Z) /\
  proxy_get extract (nd_shape a) [] = Err ValueError.
Proof.
  exists (mkNd [] (fun _ => 5%Z)), (fun sl => nd_index (mkNd [] (fun _ => 5%Z)) (map IxSlice sl)).
  split; [|split; [eexists; split; [reflexivity|split; reflexivity]|reflexivity]].
  intros sl H. inversion H; subst. do 2 eexists. split; [reflexivity|]. split; [reflexivity|]. split; reflexivity.
Qed.
Print Assumptions C67_no_dimension_refuted.

(** a 3 x 4 array with element 10 i + j *)
Definition arr34 : nd Z := mkNd [3; 4] (fun idx => (10 * Z.of_nat (hd O idx) + Z.of_nat (hd O (tl idx)))%Z).
Definition ex34 (sl : list pyslice) : res (nd Z) := nd_index arr34 (map IxSlice sl).
Definition sl (a b c : option Z) : ix := IxSlice (mkSlice a b c).
Definition elements (r : res (nd Z)) : option (list nat * list Z) :=
  match r with
  | Ok a => match nd_shape a with
            | [n] => Some ([n], map (fun i => nd_get a [i]) (seq 0 n))
            | [n; m] => Some ([n; m], flat_map (fun i => map (fun j => nd_get a [i; j]) (seq 0 m)) (seq 0 n))
            | [] => Some ([], [nd_get a []])
            | _ => None
            end
  | Err _ => None
  end.
Lemma ex34_ok : extracts (fun s d => proper s d \/ s = full_slice) ex34 arr34.
Proof.
  intros l H. unfold ex34. 
  assert (E : exists r, nd_index arr34 (map IxSlice l) = Ok r).
  { inversion H as [|s d l' ? H1 H2]; subst. inversion H2 as [|s2 d2 l2 ? H3 H4]; subst. inversion H4; subst.
    assert (G : forall s d, proper s d \/ s = full_slice -> exists l, axis_of (IxSlice s) d = Ok (Keep l)).
    { intros s0 d0 [(a & b & c & -> & _ & _ & Hc)| ->]; [|eexists; apply axis_full].
      simpl. unfold slice_range, slice_indices. simpl. destruct (Z.eqb_spec c 0); [lia|]. simpl. eauto. }
    destruct (G _ _ H1) as (k1 & E1). destruct (G _ _ H3) as (k2 & E2).
    unfold nd_index, arr34. cbn [nd_shape map length Nat.leb check bind complete app repeat Nat.sub combine mapM fst snd].
    rewrite E1, E2. cbn [bind]. eauto. }
  destruct E as (r & E). exists r, r. split; [exact E|]. split; [exact E|]. split; reflexivity.
Qed.
Example C67_example :
  nd_shape arr34 <> [] /\ extracts (fun s d => proper s d \/ s = full_slice) ex34 arr34 /\
  elements (proxy_get ex34 [3; 4] [IxInt (-1); sl None None (Some (-2)%Z)]) = Some ([2], [23; 21]%Z) /\
  elements (proxy_get ex34 [3; 4] [sl (Some 1%Z) (Some 9%Z) None; sl (Some (-3)%Z) None (Some 2%Z)]) = Some ([2; 2], [11; 13; 21; 23]%Z) /\
  elements (proxy_get ex34 [3; 4] [IxInt 2]) = Some ([4], [20; 21; 22; 23]%Z) /\
  proxy_get ex34 [3; 4] [IxInt 0; IxInt 4] = Err IndexError /\
  proxy_get ex34 [3; 4] [IxInt 0; IxInt 0; IxInt 0] = Err IndexError.
Proof. split; [discriminate|]. split; [exact ex34_ok|]. vm_compute. auto. Qed.

(** C68: a file holding [offset] bytes, the encoded samples and less than a sample
    more. The array has the announced number of samples, or all those of the file
    when there are fewer; it cannot be built when that number is not positive. *)
Theorem C68_size :
  forall (V : Type) item enc (dec : bytes -> V) good, codec item enc dec good ->
  forall offset file xs, stored enc item offset file xs -> Forall good xs ->
  forall size p, bin_new file offset size item dec = Ok p <->
  (0 < Z.min size (Z.of_nat (length xs)))%Z /\
  p = mkBin file offset item dec (Z.to_nat (Z.min size (Z.of_nat (length xs)))).
Proof. intros V item enc dec good HC offset file xs Hst Hg size p. exact (bin_new_ok item enc dec good HC offset file xs Hst Hg size p). Qed.
Print Assumptions C68_size.

(** C68: slices read the samples, and never fail. *)
Theorem C68_slices :
  forall (V : Type) (dflt : V) item enc (dec : bytes -> V) good, codec item enc dec good ->
  forall offset file xs, stored enc item offset file xs -> Forall good xs ->
  forall size p, bin_new file offset size item dec = Ok p ->
  let ys := firstn (bf_size p) xs in
  length ys = bf_size p /\
  forall s, forward s (bf_size p) ->
  exists r l, bin_get dflt p [IxSlice s] = Ok r /\ py_slice ys s = Ok l /\ lists r l.
Proof.
  intros V dflt item enc dec good HC offset file xs Hst Hg size p Hp.
  apply (bin_new_ok item enc dec good HC offset file xs Hst Hg) in Hp as (Hm & ->). cbn [bf_size].
  assert (Hn : Z.to_nat (Z.min size (Z.of_nat (length xs))) <= length xs) by lia.
  split; [rewrite firstn_length; lia|]. intros s Hf.
  exact (bin_slice dflt item enc dec good HC offset file xs _ Hst Hg Hn s Hf).
Qed.
Print Assumptions C68_slices.

(** C68: and so do integers. *)
Theorem C68_integers :
  forall (V : Type) (dflt : V) item enc (dec : bytes -> V) good, codec item enc dec good ->
  forall offset file xs, stored enc item offset file xs -> Forall good xs ->
  forall size p, bin_new file offset size item dec = Ok p ->
  forall i,
  match bin_get dflt p [IxInt i] with
  | Ok r => exists x, py_nth (firstn (bf_size p) xs) i = Ok x /\ scalar r x
  | Err e => py_nth (firstn (bf_size p) xs) i = Err e /\ e = IndexError
  end.
Proof.
  intros V dflt item enc dec good HC offset file xs Hst Hg size p Hp i.
  apply (bin_new_ok item enc dec good HC offset file xs Hst Hg) in Hp as (Hm & ->). cbn [bf_size].
  assert (Hn : Z.to_nat (Z.min size (Z.of_nat (length xs))) <= length xs) by lia.
  exact (bin_int dflt item enc dec good HC offset file xs _ Hst Hg Hn i).
Qed.
Print Assumptions C68_integers.

(** C68: 32-bit integers as numpy stores them are such an encoding. *)
Theorem C68_int32 : codec 4 (le_bytes 4) le_signed int32.
Proof. exact int32_codec. Qed.
Print Assumptions C68_int32.

(** three bytes, five samples and an incomplete one *)
Definition raw5 : list Z := [7; -1; 300; -70000; 2147483647]%Z.
Definition file5 : bytes := le_bytes 3 0 ++ concat (map (le_bytes 4) raw5) ++ le_bytes 2 77.
Definition get5 (size : Z) (x : ix) : option (list nat * list Z) :=
  match bin_new file5 3 size 4 le_signed with Ok p => elements (bin_get 0%Z p [x]) | Err _ => None end.
Example C68_example :
  stored (le_bytes 4) 4 3 file5 raw5 /\ Forall int32 raw5 /\
  get5 9 (sl (Some 1%Z) None (Some 2%Z)) = Some ([2], [-1; -70000]%Z) /\
  get5 4 (sl (Some (-3)%Z) (Some 20%Z) None) = Some ([3], [-1; 300; -70000]%Z) /\
  get5 9 (IxInt (-1)) = Some ([], [2147483647]%Z) /\
  get5 9 (sl (Some 3%Z) (Some 3%Z) None) = Some ([0], []) /\
  get5 0 (IxInt 0) = None.
Proof.
  split; [exists (le_bytes 3 0), (le_bytes 2 77); repeat split; simpl; lia|].
  split; [repeat constructor; unfold int32; lia|]. vm_compute. auto.
Qed.

(** C69: a slice whose stop is before its start raises, an array would be empty. *)
Theorem C69_reversed :
  forall (V : Type) (dflt : V) (p : binfile V) s a b c,
  slice_indices s (Z.of_nat (bf_size p)) = Ok (a, b, c) -> (0 < c)%Z -> (b < a)%Z -> (0 <= bf_offset p)%Z ->
  bin_get dflt p [IxSlice s] = Err OtherException /\
  forall xs : list V, length xs = bf_size p -> py_slice xs s = Ok [].
Proof.
  intros V dflt p s a b c Hs Hc Hab Ho. split; [exact (bin_reversed dflt p s a b c Hs Hc Hab Ho)|].
  intros xs Hx. unfold py_slice, slice_range. rewrite Hx, Hs. cbn [bind]. unfold zrange, range_len.
  rewrite (proj2 (Z.ltb_lt _ _) Hc). replace (Z.to_nat ((b - a + c - 1) / c)) with 0; [reflexivity|].
  assert ((b - a + c - 1) / c <= 0)%Z; [|lia]. apply Z.lt_succ_r. apply Z.div_lt_upper_bound; lia.
Qed.
Print Assumptions C69_reversed.

(** C69: so does every slice with a step that is not positive. *)
Theorem C69_negative_step :
  forall (V : Type) (dflt : V) (p : binfile V) s c,
  sl_step s = Some c -> (c <= 0)%Z -> bin_get dflt p [IxSlice s] = Err TypeError.
Proof. exact @bin_backward. Qed.
Print Assumptions C69_negative_step.

Definition err5 (x : ix) : option exn :=
  match bin_new file5 3 9 4 le_signed with Ok p => match bin_get 0%Z p [x] with Err e => Some e | Ok _ => None end | Err e => None end.
Example C69_example :
  slice_indices (mkSlice (Some 3%Z) (Some 1%Z) None) 5 = Ok (3, 1, 1)%Z /\
  err5 (sl (Some 3%Z) (Some 1%Z) None) = Some OtherException /\
  err5 (sl None None (Some (-1)%Z)) = Some TypeError /\
  py_slice raw5 (mkSlice None None (Some (-1)%Z)) = Ok (rev raw5).
Proof. vm_compute. auto. Qed.
