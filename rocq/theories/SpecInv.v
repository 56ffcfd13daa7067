(** Specification vocabulary for inventories and for shell patterns. *)
From Coq Require Import QArith Qcanon.
From Verif Require Import Base Arith TagsModel SyncModel SetModel InvModel SpecTags SpecSet SpecSelect QcLemmas SpecTime SpecConsec.
Open Scope nat_scope.

(** ** shell patterns ([fnmatch]) *)

(** [c] belongs to a set written [body] between brackets *)
Inductive in_class (c : ascii) : list ascii -> Prop :=
| ic_range : forall a b l, (N_of_ascii a <= N_of_ascii c)%N -> (N_of_ascii c <= N_of_ascii b)%N -> in_class c (a :: "-"%char :: b :: l)
| ic_range_next : forall a b l, in_class c l -> in_class c (a :: "-"%char :: b :: l)
| ic_char : forall l, (forall b l', l <> "-"%char :: b :: l') -> in_class c (c :: l)
| ic_next : forall a l, (forall b l', l <> "-"%char :: b :: l') -> in_class c l -> in_class c (a :: l).

(** the text [p] after an opening bracket reads: an optional '!' ([neg]), the
    non-empty [body], a closing bracket, [rest]; a closing bracket can only be
    the first character of the body *)
Definition class_at (p : list ascii) (neg : bool) (body rest : list ascii) : Prop :=
  p = (if neg then ["!"%char] else []) ++ body ++ "]"%char :: rest /\
  (exists c b, body = c :: b /\ ~ In "]"%char b /\ (neg = false -> c <> "!"%char)).

Inductive glob : list ascii -> list ascii -> Prop :=
| gl_nil : glob [] []
| gl_star : forall p s1 s2, glob p s2 -> glob ("*"%char :: p) (s1 ++ s2)
| gl_any : forall p c s, glob p s -> glob ("?"%char :: p) (c :: s)
| gl_class : forall p body rest c s, class_at p false body rest -> in_class c body -> glob rest s -> glob ("["%char :: p) (c :: s)
| gl_not_class : forall p body rest c s, class_at p true body rest -> ~ in_class c body -> glob rest s -> glob ("["%char :: p) (c :: s)
| gl_open : forall p s, (forall neg body rest, ~ class_at p neg body rest) -> glob p s -> glob ("["%char :: p) ("["%char :: s)
| gl_char : forall c p s, c <> "*"%char -> c <> "?"%char -> c <> "["%char -> glob p s -> glob (c :: p) (c :: s).

(** the name [s] matches the pattern [p] *)
Definition shell_match (p s : string) : Prop := glob (list_ascii_of_string p) (list_ascii_of_string s).

(** ** inventories *)
Section SpecInv.
Context {A : Arith} {V K : Type}.
Notation sync := (sync A V K).
Notation sigset := (@sigset A V K).
Notation seg := (@seg A V K).

(** operations that build an inventory *)
Inductive inv_op : Type := OpAppend (m : @member A V K) | OpExtend (l : list (@member A V K)) | OpAdd (other : list sigset).

Definition inv_do (inv : list sigset) (o : inv_op) : list sigset :=
  match o with
  | OpAppend m => fst (inv_append inv m)
  | OpExtend l => fst (inv_extend inv l)
  | OpAdd other => inv_add inv other
  end.

(** the signal sets a given operation adds: those before the first intruder *)
Inductive accepted : list (@member A V K) -> list sigset -> Prop :=
| ac_nil : accepted [] []
| ac_stop : forall l, accepted (MOther :: l) []
| ac_more : forall X l sets, accepted l sets -> accepted (MSet X :: l) (X :: sets).
Inductive adds : inv_op -> list sigset -> Prop :=
| ad_append : forall m sets, accepted [m] sets -> adds (OpAppend m) sets
| ad_extend : forall l sets, accepted l sets -> adds (OpExtend l) sets
| ad_add : forall other, adds (OpAdd other) other.

(** [Y] is [X] reduced to the channels of the tags selected by [sel] *)
Definition reduced (sel : string -> Prop) (X Y : sigset) : Prop :=
  exists cs, StronglySorted lt cs /\ (forall i, In i cs <-> exists k l, sel k /\ reads (ss_tags X) k l /\ In i l) /\
    Forall2 (run_selected cs) (ss_signals X) (ss_signals Y) /\
    (forall k n, tag_size Y k n <-> exists l, reads (ss_tags X) k l /\ length l = n /\ forall i, In i l -> In i cs) /\
    (forall k n p gs, tag_size Y k n -> (tracks Y k p gs <-> tracks X k p gs)).
(** some selected tag has a channel *)
Definition has_channel (sel : string -> Prop) (X : sigset) : Prop :=
  exists k l i, sel k /\ reads (ss_tags X) k l /\ In i l.
(** [l'] is [l] without the elements that do not satisfy [P], the others
    related by [R] *)
Inductive kept {B C} (P : B -> Prop) (R : B -> C -> Prop) : list B -> list C -> Prop :=
| kp_nil : kept P R [] []
| kp_drop : forall x l l', ~ P x -> kept P R l l' -> kept P R (x :: l) l'
| kp_keep : forall x y l l', P x -> R x y -> kept P R l l' -> kept P R (x :: l) (y :: l').

(** the segment [g] is recorded in [X] under position [p] of the tag [k] *)
Definition records (X : sigset) (k : string) (p : nat) (g : seg) : Prop :=
  exists s, In s (ss_signals X) /\ reads_seg (ss_tags X) s k p g.
End SpecInv.

(** the largest displacement allowed by one tolerated gap at the rate [r] *)
Definition drift (r : Qc) : Qc :=
  ((Q2Qc (1 # 100000000) + Q2Qc (1 # 100000) * (Q2Qc 1 / r)) / (Q2Qc 1 - Q2Qc (1 # 100000)))%Qc.
(** time of value number [j] of a segment *)
Definition seg_time {V K : Type} (g : @seg QA V K) (j : nat) : Qc := (g_start g + ZtoQc (Z.of_nat j) / g_rate g)%Qc.

(** a signal set as recordings are: reachable, no tag named like an attribute of
    the tag table, positive sampling rates, at least two samples in every run *)
Definition recording {V K : Type} (kone : K) (X : @sigset QA V K) : Prop :=
  reach kone X /\ plain (ss_tags X) /\ forall s, In s (ss_signals X) -> pos (s_rate s) /\ 2 <= s_size s.

(** the tags [tags] have the sizes [sizes]; the pairs (tag, position) one after the other *)
Definition places (tags : list string) (sizes : list nat) : list (string * nat) :=
  flat_map (fun tn => map (pair (fst tn)) (seq 0 (snd tn))) (combine tags sizes).

(** a member recorded the value [v] at the rate [r] under position [p] of the tag [k] *)
Definition taken {V K : Type} (inv : list (@sigset QA V K)) (k : string) (p : nat) (r : Qc) (v : V) : Prop :=
  exists X g i, In X inv /\ records X k p g /\ g_rate g = r /\ nth_error (g_vals g) i = Some v.
(** the same, and the time of that value is the one of value [j] of [g'] displaced
    by merged gaps at most *)
Definition comes_from {V K : Type} (inv : list (@sigset QA V K)) (k : string) (p : nat) (g' : @seg QA V K) (j : nat) (v : V) : Prop :=
  exists X g i n, In X inv /\ records X k p g /\ g_rate g = g_rate g' /\ nth_error (g_vals g) i = Some v /\ n <= j /\
    abs_le (seg_time g' j - seg_time g i)%Qc (ZtoQc (Z.of_nat n) * drift (g_rate g'))%Qc.
