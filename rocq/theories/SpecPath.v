(** Specification vocabulary for patterns of paths. *)
From Coq Require Import QArith Qcanon.
From Verif Require Import Base SpecInv.
Open Scope nat_scope.

Notation text := (list ascii).

(** ** patterns, as documented *)
Inductive item : Type :=
| ILit (c : ascii)
| IAny                                 (* ? *)
| ISet (neg : bool) (body : text)      (* [seq] or [!seq] *)
| IStar                                (* * *)
| IDouble                              (* ** *)
| IField (name : text).                (* {name} *)

Definition render_item (i : item) : text :=
  match i with
  | ILit c => [c]
  | IAny => ["?"%char]
  | ISet neg body => "["%char :: (if neg then ["!"%char] else []) ++ body ++ ["]"%char]
  | IStar => ["*"%char]
  | IDouble => ["*"%char; "*"%char]
  | IField n => "{"%char :: n ++ ["}"%char]
  end.
Definition render (p : list item) : text := concat (map render_item p).

(** a letter, a digit or '_' *)
Definition word (c : ascii) : Prop :=
  let n := nat_of_ascii c in n = 95 \/ 48 <= n <= 57 \/ 65 <= n <= 90 \/ 97 <= n <= 122.
(** an identifier *)
Definition ident (n : text) : Prop := exists c l, n = c :: l /\ Forall word n /\ ~ 48 <= nat_of_ascii c <= 57.

(** what an item stands for *)
Definition fits (i : item) (s : text) : Prop :=
  match i with
  | ILit c => s = [c]
  | IAny => exists c, s = [c]
  | ISet neg body => exists c, s = [c] /\ if neg then ~ in_class c body else in_class c body
  | IStar => ~ In "/"%char s
  | IDouble => True
  | IField _ => s <> [] /\ Forall word s
  end.
(** [pieces] is a way to read the name [s] as an instance of [p] *)
Definition reads (p : list item) (s : text) (pieces : list text) : Prop :=
  Forall2 fits p pieces /\ concat pieces = s.

Definition names_of (p : list item) : list text := flat_map (fun i => match i with IField n => [n] | _ => [] end) p.
(** the texts read by the fields *)
Definition values_of (p : list item) (pieces : list text) : list (text * text) :=
  flat_map (fun ix => match fst ix with IField n => [(n, snd ix)] | _ => [] end) (combine p pieces).

(** a pattern whose text reads back unambiguously *)
Definition plain (c : ascii) : Prop := ~ In c ["*"; "?"; "["; "{"; "}"]%char.
(** three sets have a meaning of their own: utils.py:508-510 *)
Definition reserved : list text := map list_ascii_of_string ["$@flag@$"; "$@singlestar@$"; "$@doublestar@$"]%string.
Fixpoint regular (p : list item) : Prop :=
  match p with
  | [] => True
  | i :: p =>
      match i with
      | ILit c => plain c
      | ISet neg body => body <> [] /\ (neg = false -> ~ In body reserved) /\ forall c, In c body -> ~ In c ["!"; "*"; "["; "]"; "{"; "}"]%char
      | IStar => match p with IStar :: _ | IDouble :: _ => False | _ => True end
      | IField n => ident n
      | _ => True
      end /\ regular p
  end.

(** ** templates *)
Inductive titem : Type := TLit (c : ascii) | TField (name : text).
Definition trender_item (i : titem) : text :=
  match i with
  | TLit c => if orb (Ascii.eqb c "{") (Ascii.eqb c "}") then [c; c] else [c]
  | TField n => "{"%char :: n ++ ["}"%char]
  end.
Definition trender (t : list titem) : text := concat (map trender_item t).
Definition tregular (t : list titem) : Prop := forall n, In (TField n) t -> ident n.

(** the text between the braces of a field: brackets are closed and shield braces,
    and there is no conversion and no format *)
Inductive field_text : text -> Prop :=
| ft_nil : field_text []
| ft_char : forall c n, ~ In c ["{"; "}"; "["; "!"; ":"]%char -> field_text n -> field_text (c :: n)
| ft_brackets : forall u n, ~ In "]"%char u -> field_text n -> field_text ("["%char :: u ++ "]"%char :: n).
(** [s] is a format string with the items [t]: braces that are not those of a field
    are doubled *)
Inductive spelled : list titem -> text -> Prop :=
| sp_nil : spelled [] []
| sp_char : forall c t s, ~ In c ["{"; "}"]%char -> spelled t s -> spelled (TLit c :: t) (c :: s)
| sp_brace : forall c t s, In c ["{"; "}"]%char -> spelled t s -> spelled (TLit c :: t) (c :: c :: s)
| sp_field : forall n t s e, field_text n -> In e [["}"%char]; [":"%char; "}"%char]] -> spelled t s ->
    spelled (TField n :: t) ("{"%char :: n ++ e ++ s).
(** a letter or '_' first *)
Definition starts_well (n : text) : Prop :=
  exists c l, n = c :: l /\ let k := nat_of_ascii c in k = 95 \/ 65 <= k <= 90 \/ 97 <= k <= 122.
(** a pattern and templates that can be used together *)
Definition acceptable (pattern : text) (tpls : list text) : Prop :=
  exists p ts, spelled p pattern /\ (forall n, In (TField n) p -> starts_well n) /\ Forall2 spelled ts tpls /\
  forall t n, In t ts -> In (TField n) t -> In (TField n) p.

(** [v] is the last value of the field [n] *)
Definition last_value (n : text) (l : list (text * text)) (v : text) : Prop :=
  exists l1 l2, l = l1 ++ (n, v) :: l2 /\ forall w, ~ In (n, w) l2.
(** the template with its fields replaced *)
Definition filled (t : list titem) (l : list (text * text)) (s : text) : Prop :=
  exists ss, Forall2 (fun i x => match i with TLit c => x = [c] | TField n => last_value n l x end) t ss /\ concat ss = s.

(** ** paths in normal form *)
Definition slashed (comps : list text) : text :=
  match comps with [] => [] | x :: l => x ++ concat (map (fun y => "/"%char :: y) l) end.
Definition up : text := ["."%char; "."%char].
Definition normal_path (s : text) : Prop :=
  s = ["."%char] \/
  exists n comps, n <= 2 /\ s = repeat "/"%char n ++ slashed comps /\
    (forall c, In c comps -> c <> [] /\ c <> ["."%char] /\ ~ In "/"%char c) /\
    (n = 0 -> comps <> [] /\ exists k m, comps = repeat up k ++ m /\ ~ In up m) /\
    (0 < n -> ~ In up comps).

(** ** order of the readings: the first piece that differs is shorter *)
Inductive shorter : list text -> list text -> Prop :=
| sh_here : forall a b l m, length a < length b -> shorter (a :: l) (b :: m)
| sh_next : forall a l m, shorter l m -> shorter (a :: l) (a :: m).

(** fields delimited by characters they cannot contain, no wildcard *)
Fixpoint delimited (p : list item) : Prop :=
  match p with
  | [] => True
  | ILit c :: p => plain c /\ delimited p
  | IField n :: p => ident n /\ match p with [] => True | ILit c :: _ => ~ word c | _ => False end /\ delimited p
  | _ => False
  end.

(** what is yielded for a list of names *)
Inductive yielded (norm : text -> text) (p : list item) (tpls : list (list titem)) : list text -> list (text * list text) -> Prop :=
| yi_nil : yielded norm p tpls [] []
| yi_skip : forall name names l, (forall pieces, ~ reads p (norm name) pieces) -> yielded norm p tpls names l -> yielded norm p tpls (name :: names) l
| yi_hit : forall name names l tags pieces, reads p (norm name) pieces ->
    (forall other, reads p (norm name) other -> other = pieces \/ shorter pieces other) ->
    Forall2 (fun t s => filled t (values_of p pieces) s) tpls tags ->
    yielded norm p tpls names l -> yielded norm p tpls (name :: names) ((name, tags) :: l).

(** ** where a path leads *)
(** the number of slashes of the root: exactly two leading slashes stand for another
    root than one slash or more than two *)
Definition root_of (s : text) (n : nat) : Prop :=
  exists m r, s = repeat "/"%char m ++ r /\ (forall r', r <> "/"%char :: r') /\ n = match m with 0 => 0 | 2 => 2 | _ => 1 end.
(** one component followed, from a place given by the number of levels above the start
    and the names followed from there, the last one first; there is nothing above a root *)
Definition follow (rooted : bool) (p : nat * list text) (c : text) : nat * list text :=
  if list_eq_dec ascii_dec c [] then p else
  if list_eq_dec ascii_dec c ["."%char] then p else
  if list_eq_dec ascii_dec c up then
    match snd p with
    | _ :: names => (fst p, names)
    | [] => (if rooted then fst p else S (fst p), [])
    end
  else (fst p, c :: snd p).
Definition leads (s : text) (n : nat) (p : nat * list text) : Prop :=
  root_of s n /\ exists comps, comps <> [] /\ (forall c, In c comps -> ~ In "/"%char c) /\ s = slashed comps /\
    p = fold_left (follow (0 <? n)) comps (0, []).
