(** Specification vocabulary for tables of numbers in text files. *)
From Coq Require Import QArith Qcanon.
From Verif Require Import Base Arith PathModel DataModel CalModel SpecCal SpecNumText.
Open Scope nat_scope. Local Open Scope list_scope.

(** ** decimal numbers *)
Definition signs (neg : bool) (s : text) : Prop := if neg then s = txt "-" else s = [] \/ s = txt "+".
(** [t] is a decimal number of the value [q], between spaces *)
Definition decimal (t : text) (q : Q) : Prop :=
  exists s1 s2 neg sg whole part dot exp e,
  t = s1 ++ sg ++ txt (digits_text whole) ++ dot ++ exp ++ s2 /\ spaces s1 /\ spaces s2 /\ signs neg sg /\
  are_digits whole /\ are_digits part /\ whole ++ part <> [] /\
  ((dot = [] /\ part = []) \/ dot = c_dot :: txt (digits_text part)) /\
  ((exp = [] /\ e = 0%Z) \/
   exists c eneg esg ds, (c = "e"%char \/ c = "E"%char) /\ exp = c :: esg ++ txt (digits_text ds) /\ signs eneg esg /\ are_digits ds /\ ds <> [] /\
     e = if eneg then (- number ds)%Z else number ds) /\
  (q == (if neg then -1 # 1 else 1 # 1) * inject_Z (number (whole ++ part)) * tenth (e - Z.of_nat (length part)))%Q.
(** an integer between spaces *)
Definition integer (t : text) (n : Z) : Prop :=
  exists s1 s2 neg sg ds, t = s1 ++ sg ++ txt (digits_text ds) ++ s2 /\ spaces s1 /\ spaces s2 /\ signs neg sg /\ are_digits ds /\ ds <> [] /\
  n = if neg then (- number ds)%Z else number ds.

(** ** lines *)
Definition eol (c : ascii) : Prop := In (nat_of_ascii c) [10; 13].
(** what a line holds before a comment, without the ends of line *)
Definition content (line body : text) : Prop :=
  exists a b rest, line = a ++ body ++ b ++ rest /\ Forall eol a /\ Forall eol b /\ ~ In "#"%char body /\
  (rest = [] \/ exists r, rest = "#"%char :: r) /\
  (forall c r, body = c :: r -> ~ eol c) /\ (forall c r, body = r ++ [c] -> ~ eol c).
Fixpoint joined (d : ascii) (cells : list text) : text :=
  match cells with [] => [] | [c] => c | c :: r => c ++ d :: joined d r end.
(** words between spaces *)
Inductive spaced : text -> list text -> Prop :=
| sp_none : forall s, spaces s -> spaced s []
| sp_word : forall s w rest ws, spaces s -> w <> [] -> Forall (fun c => ~ white c) w ->
    (forall c r, rest = c :: r -> white c) -> spaced rest ws -> spaced (s ++ w ++ rest) (w :: ws).
Definition line_cells (delim : option ascii) (line : text) (cells : list text) : Prop :=
  exists body, content line body /\
  match delim with
  | None => spaced body cells
  | Some d => (body = [] /\ cells = []) \/ (body <> [] /\ cells <> [] /\ body = joined d cells /\ Forall (fun c => ~ In d c) cells)
  end.

Section Tables.
Context {A : Arith} (of_Q : Q -> num A) (special : text -> option (num A)).
Definition cell_value (t : text) (x : num A) : Prop :=
  (exists q, decimal t q /\ x = of_Q q) \/ ((forall q, ~ decimal t q) /\ special t = Some x).
(** the rows of a table: the lines with a cell after the first [skip]; either all rows
    have the same number of cells or the first [n] are taken *)
Definition table_of (delim : option ascii) (skip : nat) (width : option nat) (lines : list text) (rows : list (list (num A))) : Prop :=
  exists cells, Forall2 (line_cells delim) (skipn skip lines) cells /\
  let kept := filter (fun r => negb (length r =? 0)) cells in
  match width with
  | Some n => Forall2 (fun r v => n <= length r /\ Forall2 cell_value (firstn n r) v) kept rows
  | None => (forall r r', In r kept -> In r' kept -> length r = length r') /\ Forall2 (Forall2 cell_value) kept rows
  end.
(** without the spaces around *)
Definition trimmed (c f : text) : Prop :=
  exists s1 s2, c = s1 ++ f ++ s2 /\ spaces s1 /\ spaces s2 /\ (forall x r, f = x :: r -> ~ white x) /\ (forall x r, f = r ++ [x] -> ~ white x).
(** the first line of a Phoenix file: four fields that are not empty, the last one is the
    number of channels *)
Definition header (line : text) (n : Z) : Prop :=
  exists cells fs f1 f2 f3 f4, line = joined "," cells /\ cells <> [] /\ Forall (fun c => ~ In ","%char c) cells /\ Forall2 trimmed cells fs /\
  filter (fun f => negb (length f =? 0)) fs = [f1; f2; f3; f4] /\ integer f4 n.
(** the rows of a Phoenix file with [n] channels: after one line, or after two when the
    second one is not a row *)
Definition phoenix_rows (lines : list text) (n : nat) (rows : list (list (num A))) : Prop :=
  table_of (Some ","%char) 1 (Some (2 + 2 * n)) lines rows \/
  ((forall r, ~ table_of (Some ","%char) 1 (Some (2 + 2 * n)) lines r) /\ table_of (Some ","%char) 2 (Some (2 + 2 * n)) lines rows).
End Tables.

(** the points of the channel [i]: frequency, level and for each channel the real and
    imaginary parts *)
Definition file_points (i : nat) (level : Qc) (rows : list (list Qc)) : list (Qc * cq) :=
  map (fun r => (nth 0 r 0%Qc, (nth (2 + 2 * i) r 0%Qc, nth (3 + 2 * i) r 0%Qc))) (filter (fun r => if Qc_eq_dec (nth 1 r 0%Qc) level then true else false) rows).
(** the first three columns *)
Definition starts (r : list Qc) (t : Qc * Qc * Qc) : Prop := exists rest, r = fst (fst t) :: snd (fst t) :: snd t :: rest.
