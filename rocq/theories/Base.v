(** Base vocabulary of the model: Python exceptions as values, dictionaries,
    sets as duplicate-free lists, slices and the stable sort.
    These model the Python language and library, not razorback itself. *)
From Coq Require Export String Ascii Bool List ZArith Lia Permutation Sorted.
Export ListNotations.
Open Scope list_scope.
Open Scope nat_scope.

(** ** Exceptions and results *)

Inductive exn : Type :=
| AssertionError | ValueError | KeyError | TypeError | IndexError
| ZeroDivisionError | OverflowError | AttributeError
| NonConvergence | LinAlgError | StructError | StopIteration | OtherException.

Inductive res (A : Type) : Type :=
| Ok (a : A)
| Err (e : exn).
Arguments Ok {A} a.
Arguments Err {A} e.

Definition bind {A B} (m : res A) (k : A -> res B) : res B :=
  match m with Ok a => k a | Err e => Err e end.

Notation "x <- m ;; k" := (bind m (fun x => k))
  (at level 61, m at next level, right associativity).
Notation "' p <- m ;; k" := (bind m (fun p => k))
  (at level 61, p pattern, m at next level, right associativity).

(** [check b e]: Python's [assert b] (with [e := AssertionError]) or
    [if not b: raise e]. *)
Definition check (b : bool) (e : exn) : res unit := if b then Ok tt else Err e.

Definition is_ok {A} (r : res A) : bool := match r with Ok _ => true | Err _ => false end.

Section MapM.
  Context {A B : Type} (f : A -> res B).
  Fixpoint mapM (l : list A) : res (list B) :=
    match l with
    | [] => Ok []
    | x :: l' => y <- f x ;; ys <- mapM l' ;; Ok (y :: ys)
    end.
End MapM.

Fixpoint foldM {A S} (f : S -> A -> res S) (s : S) (l : list A) : res S :=
  match l with
  | [] => Ok s
  | x :: l' => s' <- f s x ;; foldM f s' l'
  end.

Definition of_option {A} (e : exn) (o : option A) : res A :=
  match o with Some a => Ok a | None => Err e end.

(** ** Insertion-ordered dictionaries with string keys *)

Definition dict (B : Type) := list (string * B).

Fixpoint dget {B} (k : string) (d : dict B) : option B :=
  match d with
  | [] => None
  | (k', v) :: d' => if String.eqb k k' then Some v else dget k d'
  end.

(** assignment keeps the position of an existing key, else appends *)
Fixpoint dset {B} (k : string) (v : B) (d : dict B) : dict B :=
  match d with
  | [] => [(k, v)]
  | (k', v') :: d' => if String.eqb k k' then (k', v) :: d' else (k', v') :: dset k v d'
  end.

Fixpoint ddel {B} (k : string) (d : dict B) : dict B :=
  match d with
  | [] => []
  | (k', v) :: d' => if String.eqb k k' then d' else (k', v) :: ddel k d'
  end.

Definition dkeys {B} (d : dict B) : list string := map fst d.

Definition dmem {B} (k : string) (d : dict B) : bool :=
  match dget k d with Some _ => true | None => false end.

(** ** Finite sets as lists *)

Definition memb {A} (eqb : A -> A -> bool) (x : A) (l : list A) : bool := existsb (eqb x) l.

(** keep the first occurrence of every element *)
Fixpoint dedup {A} (eqb : A -> A -> bool) (l : list A) : list A :=
  match l with
  | [] => []
  | x :: l' => x :: filter (fun y => negb (eqb x y)) (dedup eqb l')
  end.

Definition subsetb {A} (eqb : A -> A -> bool) (l1 l2 : list A) : bool :=
  forallb (fun x => memb eqb x l2) l1.

Definition seteqb {A} (eqb : A -> A -> bool) (l1 l2 : list A) : bool :=
  subsetb eqb l1 l2 && subsetb eqb l2 l1.

(** ** Stable sort by key: Python's [sorted(l, key=...)], which only uses [<] *)

Section Sort.
  Context {A : Type} (lt : A -> A -> bool).
  Fixpoint insert (x : A) (l : list A) : list A :=
    match l with
    | [] => [x]
    | y :: l' => if lt y x then y :: insert x l' else x :: y :: l'
    end.
  Definition stable_sort (l : list A) : list A := fold_right insert [] l.
End Sort.

(** Lexicographic order on strings and lists of strings: Python's [<] on [str]
    (code points, here bytes) and on lists. *)
Fixpoint str_ltb (a b : string) : bool :=
  match a, b with
  | EmptyString, EmptyString => false
  | EmptyString, String _ _ => true
  | String _ _, EmptyString => false
  | String c a', String d b' =>
      if (N_of_ascii c <? N_of_ascii d)%N then true
      else if (N_of_ascii d <? N_of_ascii c)%N then false
      else str_ltb a' b'
  end.

Fixpoint lex_ltb {A} (ltb : A -> A -> bool) (a b : list A) : bool :=
  match a, b with
  | [], [] => false
  | [], _ :: _ => true
  | _ :: _, [] => false
  | x :: a', y :: b' => if ltb x y then true else if ltb y x then false else lex_ltb ltb a' b'
  end.

(** ** Python slices *)

Record pyslice := mkSlice { sl_start : option Z; sl_stop : option Z; sl_step : option Z }.

Definition full_slice : pyslice := mkSlice None None None.

(** [slice.indices(len)]: CPython [PySlice_AdjustIndices]. *)
Definition slice_indices (sl : pyslice) (len : Z) : res (Z * Z * Z) :=
  let step := match sl_step sl with Some s => s | None => 1%Z end in
  if (step =? 0)%Z then Err ValueError else
  let neg := (step <? 0)%Z in
  let clamp (i : Z) : Z :=
    if (i <? 0)%Z then
      let j := (i + len)%Z in
      if (j <? 0)%Z then (if neg then (-1)%Z else 0%Z) else j
    else if (len <=? i)%Z then (if neg then (len - 1)%Z else len) else i in
  let start := match sl_start sl with
               | Some i => clamp i
               | None => if neg then (len - 1)%Z else 0%Z end in
  let stop := match sl_stop sl with
              | Some i => clamp i
              | None => if neg then (-1)%Z else len end in
  Ok (start, stop, step).

(** number of elements of [range(start, stop, step)] *)
Definition range_len (start stop step : Z) : nat :=
  if (0 <? step)%Z then Z.to_nat ((stop - start + step - 1) / step)
  else Z.to_nat ((start - stop - step - 1) / (- step)).

Definition zrange (start stop step : Z) : list Z :=
  map (fun k => (start + Z.of_nat k * step)%Z) (seq 0 (range_len start stop step)).

(** indices designated by a slice in a sequence of length [len] *)
Definition slice_range (sl : pyslice) (len : nat) : res (list Z) :=
  '(a, b, c) <- slice_indices sl (Z.of_nat len) ;; Ok (zrange a b c).

(** elements of a list at a list of positions; IndexError if out of range.
    (Only used with positions already made non-negative.) *)
Definition nth_res {A} (l : list A) (i : nat) : res A := of_option IndexError (nth_error l i).

Definition znth_res {A} (l : list A) (i : Z) : res A :=
  if (i <? 0)%Z then Err IndexError else nth_res l (Z.to_nat i).

(** Python's [l[i]] with a possibly negative integer *)
Definition py_nth {A} (l : list A) (i : Z) : res A :=
  let j := if (i <? 0)%Z then (i + Z.of_nat (length l))%Z else i in znth_res l j.

(** Python's [l[sl]] *)
Definition py_slice {A} (l : list A) (sl : pyslice) : res (list A) :=
  idx <- slice_range sl (length l) ;; mapM (znth_res l) idx.

(** Python's [l[i:j]], step 1 (cannot fail) *)
Definition norm_index (len i : Z) : Z :=
  if (i <? 0)%Z then Z.max 0 (i + len) else Z.min i len.

Definition py_slice1 {A} (l : list A) (i j : Z) : list A :=
  let len := Z.of_nat (length l) in
  let a := Z.to_nat (norm_index len i) in
  let b := Z.to_nat (norm_index len j) in
  firstn (b - a) (skipn a l).
