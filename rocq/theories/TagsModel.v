(** Model of [TagsBase] and [Tags], src/razorback/signalset.py:27-143.

    Simplifications: tag names are byte strings and [str.isalpha] is decided on
    ASCII letters; channel numbers are Python ints (no bool, float or numpy
    scalars); names beginning with '_' (private attributes) are not assigned. *)
From Verif Require Import Base.

(** A value given by a user for a tag: an int, a tuple, or another iterable
    (list, generator) of ints. *)
Inductive raw : Type :=
| RInt (z : Z)
| RTuple (l : list Z)
| RList (l : list Z).

(** signalset.py:27-31 [_tupleit] *)
Definition tupleit (r : raw) : list Z :=
  match r with RInt z => [z] | RTuple l => l | RList l => l end.

(** The state of a [Tags] object (signalset.py:34-38, 121-125):
    [_tags] is an insertion-ordered dict of tuples, [_indices] is
    [frozenset(range(n))], represented by [n].
    Stored values are naturals: only members of [range(n)] are ever stored. *)
Record tags : Type := mkTags { t_n : nat; t_dict : dict (list nat) }.

(** ASCII part of [str.isalpha] on [key[:1]] (signalset.py:64) *)
Definition is_alpha (c : ascii) : bool :=
  let n := nat_of_ascii c in
  ((65 <=? n) && (n <=? 90)) || ((97 <=? n) && (n <=? 122)).
Definition head_alpha (k : string) : bool :=
  match k with EmptyString => false | String c _ => is_alpha c end.

(** signalset.py:72-79 [__getattribute__]: a tag shadows any attribute of the
    same name. [shadows t m] says that [t.m] is the tuple of the tag [m]. *)
Definition shadows (t : tags) (m : string) : bool := dmem m (t_dict t).

(** [t.indices] (signalset.py:40-42 through 72-79): the frozenset
    [range(n)], unless a tag is called 'indices'. *)
Inductive idxval : Type := ISet (n : nat) | ITuple (l : list nat).
Definition t_indices (t : tags) : idxval :=
  match dget "indices" (t_dict t) with
  | Some l => ITuple l
  | None => ISet (t_n t)
  end.
Definition idx_mem (v : Z) (i : idxval) : bool :=
  match i with
  | ISet n => (0 <=? v)%Z && (v <? Z.of_nat n)%Z
  | ITuple l => memb Z.eqb v (map Z.of_nat l)
  end.
Definition idx_len (i : idxval) : nat := match i with ISet n => n | ITuple l => length l end.
(** elements, for [set(vidx).issubset(...)] *)
Definition idx_list (i : idxval) : list nat := match i with ISet n => seq 0 n | ITuple l => l end.
Definition idx_eqb (a b : idxval) : bool :=
  match a, b with
  | ISet n, ISet m => n =? m
  | ITuple l, ITuple m => if list_eq_dec Nat.eq_dec l m then true else false
  | _, _ => false
  end.

(** [t.m] used as a method by the code ([items], [keys], [get], ...): calling a
    shadowing tuple raises TypeError. *)
Definition method (t : tags) (m : string) : res unit := check (negb (shadows t m)) TypeError.

(** signalset.py:62-70 [__setitem__] *)
Definition t_set (t : tags) (k : string) (v : raw) : res tags :=
  _ <- check (head_alpha k) AssertionError ;;
  let value := tupleit v in
  _ <- check (negb (length value =? 0)) AssertionError ;;
  _ <- check (forallb (fun x => idx_mem x (t_indices t)) value) ValueError ;;
  Ok (mkTags (t_n t) (dset k (map Z.to_nat value) (t_dict t))).

(** signalset.py:59-60 [__getitem__] *)
Definition t_get (t : tags) (k : string) : res (list nat) := of_option KeyError (dget k (t_dict t)).

(** signalset.py:72-79 read access [t.name] for a public name that is not an
    attribute of the class *)
Definition t_getattr (t : tags) (k : string) : res (list nat) :=
  of_option AttributeError (dget k (t_dict t)).

(** signalset.py:56-57 [__delitem__] *)
Definition t_del (t : tags) (k : string) : res tags :=
  if dmem k (t_dict t) then Ok (mkTags (t_n t) (ddel k (t_dict t))) else Err KeyError.

(** signalset.py:81-84 [__setattr__], public names: 'indices' goes to the
    read-only property (AttributeError) *)
Definition t_setattr (t : tags) (k : string) (v : raw) : res tags :=
  if String.eqb k "indices" then Err AttributeError else t_set t k v.

(** signalset.py:86-90 [__delattr__] *)
Definition t_delattr (t : tags) (k : string) : res tags :=
  if dmem k (t_dict t) then Ok (mkTags (t_n t) (ddel k (t_dict t))) else Err AttributeError.

(** [MutableMapping.update] (collections.abc) as used at signalset.py:38: item
    by item; the state reached so far is kept when an item is rejected. *)
Fixpoint t_update (t : tags) (d : dict raw) : tags * res unit :=
  match d with
  | [] => (t, Ok tt)
  | (k, v) :: d' => match t_set t k v with
                    | Ok t' => t_update t' d'
                    | Err e => (t, Err e)
                    end
  end.

(** signalset.py:121-125 [Tags.__init__(self, n=None, **dct)] called with a
    positional [n] (as the library does everywhere): keywords 'n' and 'self'
    collide with the parameters. [zmax1] is [1 + max(idx)] for non-empty idx. *)
Definition reserved_kw (k : string) : bool := String.eqb k "n" || String.eqb k "self".
Definition infer_n (d : dict raw) : Z :=
  match concat (map (fun kv => tupleit (snd kv)) d) with
  | [] => 0%Z
  | x :: l => (1 + fold_left Z.max l x)%Z
  end.
Definition tags_new (n : option Z) (d : dict raw) : res tags :=
  _ <- check (negb (existsb reserved_kw (dkeys d))) TypeError ;;
  let n := match n with Some n => n | None => infer_n d end in
  match t_update (mkTags (Z.to_nat n) []) d with
  | (t, Ok _) => Ok t
  | (_, Err e) => Err e
  end.

(** signalset.py:44-46 [__eq__] between two Tags: dict equality (order does not
    matter) and equality of [indices] *)
Definition nat_list_eqb (a b : list nat) : bool := if list_eq_dec Nat.eq_dec a b then true else false.
Definition dict_subb (d1 d2 : dict (list nat)) : bool :=
  forallb (fun kv => match dget (fst kv) d2 with
                     | Some v => nat_list_eqb (snd kv) v
                     | None => false end) d1.
Definition tags_eqb (a b : tags) : bool :=
  dict_subb (t_dict a) (t_dict b) && dict_subb (t_dict b) (t_dict a)
  && idx_eqb (t_indices a) (t_indices b).

(** ** Tags as a state machine: the mutations available to a user *)
Inductive top : Type :=
| TSet (k : string) (v : raw)      (* t[k] = v *)
| TDel (k : string)                (* del t[k] *)
| TPop (k : string)                (* t.pop(k) *)
| TPopitem                         (* t.popitem() *)
| TSetdefault (k : string) (v : raw) (* t.setdefault(k, v) *)
| TSetAttr (k : string) (v : raw)  (* t.k = v *)
| TDelAttr (k : string)            (* del t.k *)
| TUpdate (d : dict raw)           (* t.update(d) *)
| TClear.                          (* t.clear() *)

Definition keep_on_error {S} (s : S) (r : res S) : S * res unit :=
  match r with Ok s' => (s', Ok tt) | Err e => (s, Err e) end.

(** [MutableMapping.popitem]: removes the first item *)
Definition t_popitem (t : tags) : res tags :=
  match t_dict t with
  | [] => Err KeyError
  | _ :: d => Ok (mkTags (t_n t) d)
  end.

(** The inherited methods (collections.abc.MutableMapping) are looked up on the
    object, so they are subject to shadowing; [clear] calls [self.popitem] until
    KeyError. *)
Definition t_step (t : tags) (o : top) : tags * res unit :=
  match o with
  | TSet k v => keep_on_error t (t_set t k v)
  | TDel k => keep_on_error t (t_del t k)
  | TPop k => keep_on_error t (_ <- method t "pop" ;; t_del t k)
  | TPopitem => keep_on_error t (_ <- method t "popitem" ;; t_popitem t)
  | TSetdefault k v =>
      keep_on_error t (_ <- method t "setdefault" ;;
                       if dmem k (t_dict t) then Ok t else t_set t k v)
  | TSetAttr k v => keep_on_error t (t_setattr t k v)
  | TDelAttr k => keep_on_error t (t_delattr t k)
  | TUpdate d =>
      match method t "update" with
      | Ok _ => t_update t d
      | Err e => (t, Err e)
      end
  | TClear => match _ <- method t "clear" ;; method t "popitem" with
              | Ok _ => (mkTags (t_n t) [], Ok tt)
              | Err e => (t, Err e)
              end
  end.

Definition t_run (t : tags) (os : list top) : tags := fold_left (fun s o => fst (t_step s o)) os t.
