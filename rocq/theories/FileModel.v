(** Model of the file arrays of src/razorback/io/binary_file_array.py:48-54, 105-158 in a
    file system that may change between their creation and their use.

    Simplifications: no symbolic links, names do not end with a slash, every directory of
    a name exists, so that a name stands for its normalised absolute form; all OSErrors are
    [OtherException]. *)
From Verif Require Import Base PathModel ProxyModel.

Inductive entry : Type := Dir (st_size : nat) | File (content : bytes).
Definition st_size (e : entry) : nat := match e with Dir n => n | File c => length c end.

(** the current directory, and what is at a normalised absolute path *)
Record world : Type := mkWorld { w_cwd : text; w_at : text -> option entry }.

(** [os.path.join(a, b)] *)
Definition os_join (a b : text) : text :=
  match b with
  | c :: _ => if is c c_slash then b else match rev a with [] => b | d :: _ => if is d c_slash then a ++ b else a ++ c_slash :: b end
  | [] => match rev a with [] => b | d :: _ => if is d c_slash then a else a ++ [c_slash] end
  end.
(** [os.path.abspath] *)
Definition abspath (cwd name : text) : text :=
  normpath (match name with c :: _ => if is c c_slash then name else os_join cwd name | [] => os_join cwd name end).

Section Files.
Context {V D : Type} (dflt : V).

(** [FileSource] and the attributes of the proxy, binary_file_array.py:105, 42-46 *)
Record farray : Type := mkFarray {
  fa_path : text; fa_offset : Z; fa_item : nat; fa_dec : bytes -> V; fa_size : nat
}.

(** binary_file_array.py:124-129, 132-141, 115-120 and 38-46, in this order *)
Definition file_open (w : world) (name : text) (offset size : Z) (item : nat) (dec : bytes -> V) : res farray :=
  e <- of_option OtherException (w_at w (abspath (w_cwd w) name)) ;;
  let new := ((Z.of_nat (st_size e) - offset) / Z.of_nat item)%Z in
  let size := if (new <? size)%Z then new else size in
  ' _ <- check (proxy_shape_ok [size]) AssertionError ;;
  let path := abspath (w_cwd w) name in
  ' _ <- check (match w_at w path with Some (File _) => true | _ => false end) ValueError ;;
  Ok (mkFarray path offset item dec (Z.to_nat size)).

(** binary_file_array.py:143-158 *)
Definition file_extract (w : world) (p : farray) (index : list pyslice) : res (nd V) :=
  match w_at w (fa_path p) with
  | Some (File content) => bin_extract dflt (mkBin content (fa_offset p) (fa_item p) (fa_dec p) (fa_size p)) index
  | _ => Err OtherException
  end.
(** [p[index]] *)
Definition file_get (w : world) (p : farray) (index : list ix) : res (nd V) := proxy_get (file_extract w p) [fa_size p] index.

(** binary_file_array.py:48-54 [__array__] *)
Definition file_array (deqb : D -> D -> bool) (astype : D -> V -> V) (own : D) (w : world) (p : farray) (dtype : option D) : res (nd V) :=
  x <- file_get w p [ix_full] ;;
  Ok (match dtype with
      | Some d => if negb (deqb own d) then mkNd (nd_shape x) (fun i => astype d (nd_get x i)) else x
      | None => x
      end).
End Files.
Arguments mkFarray {V}. Arguments fa_path {V}. Arguments fa_offset {V}. Arguments fa_item {V}. Arguments fa_dec {V}. Arguments fa_size {V}.
