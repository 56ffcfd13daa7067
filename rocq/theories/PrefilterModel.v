(** Model of the block structure of src/razorback/prefilters.py:11-37
    [CoefficientOfDeterminationFilter]. The coefficient of a block of rows is a
    parameter [cod] (CodModel.v studies it). *)
From Verif Require Import Base.

Section Filter.
(** numbers with 0 and the comparison of numpy *)
Context {N E B : Type}.
Variables (zero : N) (ltb : N -> N -> bool).
Variable cod : list E -> list B -> res N.

(** prefilters.py:29-31 [breshape]: the first [len // size] blocks of [size] rows *)
Definition breshape {T} (size : nat) (l : list T) : list (list T) :=
  map (fun i => firstn size (skipn (i * size) l)) (seq 0 (length l / size)).

(** [l[:-1]] *)
Definition butlast {T} (l : list T) : list T := firstn (length l - 1) l.

(** prefilters.py:26-37 [value], for a [size] that is not negative and arrays [e], [b]
    of the same length. [len(e) % size] fails for the size 0. [coeff_det] fails if one of the blocks fails (numpy's batched
    solve). [cod[-queue:] = ...]: the last [queue] entries, all of them if there
    are fewer. The entries not covered by an assignment keep the zeros of
    [np.zeros]. *)
Definition value (size : nat) (e : list E) (b : list B) : res (list (N)) :=
  let n := length e in
  ' _ <- check (0 <? size) ZeroDivisionError ;;
  let queue := size + n mod size in
  tmp <- mapM (fun p => cod (fst p) (snd p)) (combine (butlast (breshape size e)) (butlast (breshape size b))) ;;
  let c0 := repeat zero n in
  let c1 := concat (map (fun t => repeat t size) tmp) ++ skipn (length tmp * size) c0 in
  last <- cod (skipn (n - queue) e) (skipn (n - queue) b) ;;
  Ok (firstn (n - queue) c1 ++ repeat last (length (skipn (n - queue) c1))).

(** prefilters.py:21-24 [__call__]; the arguments of the constructor are [cod_min],
    [cod_max] and [size] *)
Definition where_ (f : N -> bool) (l : list (N)) : list Z :=
  flat_map (fun p => if f (snd p) then [Z.of_nat (fst p)] else []) (combine (seq 0 (length l)) l).
Definition cod_filter (cod_min cod_max : N) (size : nat) (e : list E) (b : list B) : res (list Z) :=
  c <- value size e b ;; Ok (where_ (fun x => ltb x cod_min || ltb cod_max x) c).

End Filter.
