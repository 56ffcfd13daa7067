(** Specification vocabulary for the texts of tags and signal sets. *)
From Coq Require Import DecimalString.
From Verif Require Import Base Arith TagsModel SpecTags SyncModel SetModel.
Local Open Scope string_scope. Local Open Scope list_scope. Local Open Scope nat_scope.

(** order of texts: by the first character that differs *)
Inductive before : string -> string -> Prop :=
| bf_end : forall c s, before EmptyString (String c s)
| bf_here : forall c d s r, nat_of_ascii c < nat_of_ascii d -> before (String c s) (String d r)
| bf_next : forall c s r, before s r -> before (String c s) (String c r).

(** the numeral of a number *)
Definition numeral (n : nat) : string := NilEmpty.string_of_uint (Nat.to_uint n).
(** texts separated by commas *)
Fixpoint listed (l : list string) : string :=
  match l with [] => "" | [x] => x | x :: l => x ++ ", " ++ listed l end%string.
(** a tuple: a comma follows a single member *)
Definition tupled (l : list nat) : string :=
  ("(" ++ listed (map numeral l) ++ (if (length l =? 1)%nat then "," else "") ++ ")")%string.

(** shorter tuples first, then in the order of the names *)
Definition listed_before (a b : string * list nat) : Prop :=
  length (snd a) < length (snd b) \/ (length (snd a) = length (snd b) /\ before (fst a) (fst b)).

(** the number of channels, or the number of members of a tag called 'indices' *)
Definition size_shown (t : tags) (n : nat) : Prop :=
  ((forall l, ~ reads t "indices" l) /\ n = t_n t) \/ (exists l, reads t "indices" l /\ n = length l).

(** a text without the character [c] *)
Definition lacks (c : ascii) (s : string) : Prop := ~ In c (list_ascii_of_string s).
(** a printable name without quotes, backslash and percent sign *)
Definition tame (s : string) : Prop :=
  forall c, In c (list_ascii_of_string s) -> 32 <= nat_of_ascii c <= 126 /\ ~ In (nat_of_ascii c) [34; 37; 39; 92].

(** a printable name without percent sign *)
Definition printable (s : string) : Prop :=
  forall c, In c (list_ascii_of_string s) -> 32 <= nat_of_ascii c <= 126 /\ nat_of_ascii c <> 37.

(** a printable name; every percent sign in it is followed by a percent sign, by a letter
    that may be a conversion or by nothing (no flags, widths or keys, which Python reads
    as parts of a directive) *)
Definition directives (s : string) : Prop :=
  (forall c, In c (list_ascii_of_string s) -> 32 <= nat_of_ascii c <= 126) /\
  (forall u c v, list_ascii_of_string s = (u ++ "%"%char :: c :: v)%list ->
   nat_of_ascii c = 37 \/ (65 <= nat_of_ascii c <= 90 \/ 97 <= nat_of_ascii c <= 122) /\ ~ In c ["h"; "l"; "L"]%char).
(** the percent signs of [s] come in pairs, and [t] has one for each pair *)
Inductive halved : string -> string -> Prop :=
| hv_end : halved EmptyString EmptyString
| hv_plain : forall c s t, c <> "%"%char -> halved s t -> halved (String c s) (String c t)
| hv_pair : forall s t, halved s t -> halved (String "%" (String "%" s)) (String "%" t).

(** [body q s t]: between quotes [q] the characters [t] stand for the name [s]; a
    backslash precedes the backslashes and the quotes [q] of the name *)
Inductive body (q : ascii) : string -> string -> Prop :=
| bd_end : body q EmptyString EmptyString
| bd_plain : forall c s t, nat_of_ascii c <> 92 -> c <> q -> body q s t -> body q (String c s) (String c t)
| bd_marked : forall c b s t, nat_of_ascii c = 92 \/ c = q -> nat_of_ascii b = 92 -> body q s t -> body q (String c s) (String b (String c t)).
(** the literal of a name: between double quotes (34) if it contains single quotes (39)
    and no double quote, else between single quotes *)
Definition literal (s t : string) : Prop :=
  exists q u, t = String q (u ++ String q EmptyString)%string /\ body q s u /\
  ((nat_of_ascii q = 34 /\ (exists c, In c (list_ascii_of_string s) /\ nat_of_ascii c = 39) /\ forall c, In c (list_ascii_of_string s) -> nat_of_ascii c <> 34) \/
   (nat_of_ascii q = 39 /\ ((forall c, In c (list_ascii_of_string s) -> nat_of_ascii c <> 39) \/ exists c, In c (list_ascii_of_string s) /\ nat_of_ascii c = 34))).
(** the text of a tag of a signal set *)
Definition tag_text (e : string * list nat) (t : string) : Prop :=
  exists u, literal (fst e) u /\ t = (u ++ ": " ++ tupled (snd e))%string.

(** the text of tags with the items in the given order *)
Definition entry (e : string * list nat) : string := (fst e ++ "=" ++ tupled (snd e))%string.
Definition text_of (n : nat) (items : list (string * list nat)) : string :=
  ("Tags(" ++ numeral n ++ ", " ++ listed (map entry items) ++ ")")%string.

(** the text of a signal set; [show] is the text of a number with two digits *)
Section Sets.
Context {A : Arith} {V K : Type} (show : num A -> string).
Definition run_text (s : sync A V K) : string :=
  ("SyncSignal([" ++ numeral (length (s_data s)) ++ "x" ++ numeral (s_size s) ++ "], sampling_rate=" ++ show (s_rate s) ++
   ", start=" ++ show (s_start s) ++ ", calibrations=[...])")%string.
Definition pair_text (e : string * list nat) : string := ("'" ++ fst e ++ "': " ++ tupled (snd e))%string.
Definition set_text (X : @sigset A V K) : string :=
  ("SignalSet({" ++ listed (map pair_text (t_dict (ss_tags X))) ++ "}, " ++ listed (map run_text (ss_signals X)) ++ ")")%string.
End Sets.
