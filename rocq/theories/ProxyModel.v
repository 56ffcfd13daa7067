(** Model of src/razorback/io/binary_file_array.py: array proxies, and the proxy of
    a one-dimensional array stored in a binary file. *)
From Verif Require Import Base.

(** ** numpy arrays and basic indexing *)

(** an array: its shape, and the element at each position *)
Record nd (V : Type) : Type := mkNd { nd_shape : list nat; nd_get : list nat -> V }.
Arguments mkNd {V}. Arguments nd_shape {V}. Arguments nd_get {V}.

(** one component of an index. Simplification: floats equal to an integer, which
    line 85 accepts, and other kinds of index are not modelled *)
Inductive ix : Type := IxSlice (s : pyslice) | IxInt (i : Z).
Definition ix_full : ix := IxSlice full_slice.

(** what an index component does to an axis: keep some positions, or select one and
    remove the axis *)
Inductive axis : Type := Keep (l : list nat) | Drop (i : nat).
Definition axis_of (x : ix) (d : nat) : res axis :=
  match x with
  | IxSlice s => l <- slice_range s d ;; Ok (Keep (map Z.to_nat l))
  | IxInt i =>
      let i := if (i <? 0)%Z then (i + Z.of_nat d)%Z else i in
      if (0 <=? i)%Z && (i <? Z.of_nat d)%Z then Ok (Drop (Z.to_nat i)) else Err IndexError
  end.

(** position in the source of the position [idx] of the result *)
Fixpoint source (axes : list axis) (idx : list nat) : list nat :=
  match axes with
  | [] => []
  | Drop i :: axes => i :: source axes idx
  | Keep l :: axes => nth (hd 0 idx) l 0 :: source axes (tl idx)
  end.
Definition kept (axes : list axis) : list nat :=
  flat_map (fun a => match a with Keep l => [length l] | Drop _ => [] end) axes.

(** [a[index]], [index] a tuple; missing components are [:] *)
Definition complete (index : list ix) (shape : list nat) : list ix :=
  index ++ repeat ix_full (length shape - length index).
Definition nd_index {V} (a : nd V) (index : list ix) : res (nd V) :=
  let shape := nd_shape a in
  ' _ <- check (length index <=? length shape) IndexError ;;
  axes <- mapM (fun p => axis_of (fst p) (snd p)) (combine (complete index shape) shape) ;;
  Ok (mkNd (kept axes) (fun idx => nd_get a (source axes idx))).

(** ** binary_file_array.py:29-102 [BaseArrayProxy] *)

(** binary_file_array.py:72-99 [_to_slice] *)
Definition to_slice (x : ix) (d : nat) : res (pyslice * ix) :=
  match x with
  | IxSlice s =>
      if match sl_step s with None => true | Some c => (0 <? c)%Z end
      then ' (a, b, c) <- slice_indices s (Z.of_nat d) ;; Ok (mkSlice (Some a) (Some b) (Some c), ix_full)
      else Ok (full_slice, x)
  | IxInt i =>
      let i := if (i <? 0)%Z then (i + Z.of_nat d)%Z else i in
      if (0 <=? i)%Z && (i <? Z.of_nat d)%Z
      then Ok (mkSlice (Some i) (Some (i + 1)%Z) (Some 1%Z), IxInt 0)
      else Err IndexError
  end.

(** binary_file_array.py:56-70 [__getitem__], [_pure_slice_index]; unpacking the
    pairs fails when there is no dimension *)
Definition proxy_get {V} (extract : list pyslice -> res (nd V)) (shape : list nat) (index : list ix) : res (nd V) :=
  ' _ <- check (length index <=? length shape) IndexError ;;
  pairs <- mapM (fun p => to_slice (fst p) (snd p)) (combine (complete index shape) shape) ;;
  ' _ <- check (negb (length pairs =? 0)) ValueError ;;
  r <- extract (map fst pairs) ;;
  nd_index r (map snd pairs).

(** binary_file_array.py:38-46: the dimensions have to be positive *)
Definition proxy_shape_ok (shape : list Z) : bool := forallb (fun d => (0 <? d)%Z) shape.

(** ** binary_file_array.py:123-158 [BinaryFileArray_1D] *)
Notation bytes := (list ascii).

Record binfile (V : Type) : Type := mkBin {
  bf_bytes : bytes;              (* the content of the file *)
  bf_offset : Z;                 (* negative for some headers, see AtsModel *)
  bf_item : nat;                 (* dtype.itemsize *)
  bf_dec : bytes -> V;           (* the value stored in [bf_item] bytes *)
  bf_size : nat                  (* the shape is (size,) *)
}.
Arguments mkBin {V}. Arguments bf_bytes {V}. Arguments bf_offset {V}. Arguments bf_item {V}. Arguments bf_dec {V}. Arguments bf_size {V}.

(** binary_file_array.py:131-141 [_get_real_size] *)
Definition real_size (file : bytes) (offset : Z) (size : Z) (item : nat) : Z :=
  let new := ((Z.of_nat (length file) - offset) / Z.of_nat item)%Z in
  if (new <? size)%Z then new else size.

(** binary_file_array.py:124-129 [__init__], for a file that exists *)
Definition bin_new {V} (file : bytes) (offset : Z) (size : Z) (item : nat) (dec : bytes -> V) : res (binfile V) :=
  let size := real_size file offset size item in
  ' _ <- check (proxy_shape_ok [size]) AssertionError ;;
  Ok (mkBin file offset item dec (Z.to_nat size)).

(** [np.fromfile(f, dtype, count)] from the position [pos]: at most [count] items,
    all of them for a negative [count]; an incomplete last item is ignored *)
Definition fromfile {V} (p : binfile V) (pos : nat) (count : Z) : list V :=
  let rest := skipn pos (bf_bytes p) in
  let avail := length rest / bf_item p in
  let n := if (count <? 0)%Z then avail else Nat.min (Z.to_nat count) avail in
  map (fun i => bf_dec p (firstn (bf_item p) (skipn (bf_item p * i) rest))) (seq 0 n).

Definition nd_of_list {V} (dflt : V) (l : list V) : nd V := mkNd [length l] (fun idx => nth (hd 0 idx) l dflt).

(** binary_file_array.py:143-158 [extract]; the last line is [arr[::idx.step]] *)
Definition bin_extract {V} (dflt : V) (p : binfile V) (index : list pyslice) : res (nd V) :=
  match index with
  | [idx] =>
      match sl_start idx, sl_stop idx with
      | Some start, Some stop =>
          let pos := (bf_offset p + Z.of_nat (bf_item p) * start)%Z in
          ' _ <- check (0 <=? pos)%Z OtherException ;;
          let length_ := (stop - start)%Z in
          let arr := fromfile p (Z.to_nat pos) length_ in
          ' _ <- check (Z.of_nat (length arr) =? length_)%Z OtherException ;;
          nd_index (nd_of_list dflt arr) [IxSlice (mkSlice None None (sl_step idx))]
      | _, _ => Err TypeError
      end
  | _ => Err ValueError
  end.

Definition bin_get {V} (dflt : V) (p : binfile V) (index : list ix) : res (nd V) :=
  proxy_get (bin_extract dflt p) [bf_size p] index.
