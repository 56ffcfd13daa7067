(** Specification vocabulary for the printed forms of signal sets. *)
From Coq Require Import QArith.
From Verif Require Import Base Arith TagsModel SpecTags SyncModel SetModel SpecRepr SpecNumText.
Open Scope nat_scope. Local Open Scope string_scope. Local Open Scope list_scope. Local Open Scope nat_scope.

Definition newline : string := String (ascii_of_nat 10) EmptyString.
(** lines separated by newlines *)
Fixpoint in_lines (l : list string) : string :=
  match l with [] => "" | [x] => x | x :: l => x ++ newline ++ in_lines l end%string.
(** [n] characters at least, spaces on the left *)
Definition right_of (n : nat) (s t : string) : Prop :=
  exists sp, t = (sp ++ s)%string /\ (forall c, In c (list_ascii_of_string sp) -> nat_of_ascii c = 32) /\ String.length sp = n - String.length s.
(** a number and a noun, in the plural above one *)
Definition quantity (n : nat) (noun : string) : string :=
  (numeral n ++ " " ++ noun ++ (if (n <=? 1)%nat then "" else "s"))%string.

(** the entries of a dict in rows of at most 45 characters, each entry with the comma and
    the space that follow it: a row takes as many entries as it can, but the first row is
    left empty when the first entry does not fit *)
Definition taken (row : list string) : nat := fold_right (fun e n => String.length e + 2 + n) 0 row.
Inductive filled : list (list string) -> Prop :=
| fl_last : forall row, taken row <= 45 \/ length row = 1 -> filled [row]
| fl_row : forall row e next rows, taken row <= 45 \/ length row = 1 -> 45 < taken row + String.length e + 2 ->
    filled ((e :: next) :: rows) -> filled (row :: (e :: next) :: rows).
(** the text of the rows *)
Fixpoint row_text (row : list string) : string := match row with [] => "" | e :: r => e ++ ", " ++ row_text r end%string.
Fixpoint rows_text (rows : list (list string)) : string :=
  match rows with
  | [] => ""
  | [row] => listed row
  | row :: rows => row_text row ++ newline ++ "       " ++ rows_text rows
  end%string.

Section Text.
Context {A : Arith} {V K : Type} (val : num A -> Q).

(** the text of a number rounded to [p] digits *)
Definition approx (p : Z) (x : Q) (t : string) : Prop := exists v, rounded p x v /\ written p v t.
(** the date and time of the nearest second *)
Definition clock (x : Q) (t : string) : Prop := exists n, nearest x n /\ instant n t.
(** outside the years 1 to 9999 *)
Definition no_clock (x : Q) : Prop := exists n, nearest x n /\ (n < -62135596800 \/ 253402300799 < n)%Z.

(** the row of a run *)
Definition row_of (s : sync A V K) (t : string) : Prop :=
  exists stop rate r a b, s_stop s = Ok stop /\ approx 5 (val (s_rate s)) rate /\ right_of 10 rate r /\
  clock (val (s_start s)) a /\ clock (val stop) b /\ t = (r ++ "  " ++ a ++ "  " ++ b)%string.
(** a run that cannot be shown *)
Definition unprintable (s : sync A V K) (e : exn) : Prop :=
  (e = ValueError /\ no_clock (val (s_start s))) \/
  (exists a, clock (val (s_start s)) a /\ s_stop s = Err e) \/
  (e = ValueError /\ exists a stop, clock (val (s_start s)) a /\ s_stop s = Ok stop /\ no_clock (val stop)).
(** the number of channels *)
Definition channels_shown (X : @sigset A V K) (n : nat) : Prop :=
  match ss_signals X with s :: _ => n = length (s_data s) | [] => size_shown (ss_tags X) n end.

Definition rule : string := "----------  -------------------  -------------------".
Definition printed (X : @sigset A V K) (t : string) : Prop :=
  exists n items texts rows runs,
  channels_shown X n /\
  Permutation items (t_dict (ss_tags X)) /\ StronglySorted listed_before items /\ Forall2 tag_text items texts /\
  concat rows = texts /\ filled rows /\ taken (hd [] rows) <= 45 /\
  Forall2 row_of (ss_signals X) runs /\
  t = in_lines ([("SignalSet: " ++ quantity n "channel" ++ ", " ++ quantity (length (ss_signals X)) "run")%string;
                 ("tags: {" ++ rows_text rows ++ "}")%string;
                 rule; "  sampling                start                 stop"] ++ runs ++ [rule]).

(** the text of a run; [rate] is the text of its rate *)
Definition described (s : sync A V K) (rate : string) (t : string) : Prop :=
  exists stop a b, s_stop s = Ok stop /\ clock (val (s_start s)) a /\ clock (val stop) b /\
  t = in_lines ["SyncSignal"; ("  - nb of channels :   " ++ numeral (length (s_data s)))%string; ("  - signal size    :   " ++ numeral (s_size s))%string;
                ("  - sampling rate  :   " ++ rate ++ " Hz")%string; ("  - start          :   " ++ a)%string; ("  - stop           :   " ++ b)%string].
End Text.
