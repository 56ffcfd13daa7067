(** Specification vocabulary for calibration files. *)
From Coq Require Import QArith Qcanon.
From Verif Require Import Base Arith PathModel DataModel CalModel.
Open Scope nat_scope.

(** the characters for which Python's [str.isspace] is true: tab, line feed, vertical
    tab, form feed, carriage return, the four separators, space, next line and
    no-break space *)
Definition white (c : ascii) : Prop := In (nat_of_ascii c) [9; 10; 11; 12; 13; 28; 29; 30; 31; 32; 133; 160].
Definition spaces (l : text) : Prop := Forall white l.
Definition digit (c : ascii) : Prop := In c (txt "0123456789").
(** the word written with small or capital letters *)
Definition letters : list (ascii * ascii) := combine (txt "abcdefghijklmnopqrstuvwxyz") (txt "ABCDEFGHIJKLMNOPQRSTUVWXYZ").
Definition spells (w a : text) : Prop := Forall2 (fun x c => c = x \/ In (x, c) letters) w a.

(** a line that starts, after white space, with the two words in any case *)
Definition says (w1 w2 l : text) : Prop :=
  exists s1 a s2 b rest, l = s1 ++ a ++ s2 ++ b ++ rest /\
  spaces s1 /\ spells w1 a /\ s2 <> [] /\ spaces s2 /\ spells w2 b.

(** the lines between the first line with the mark and the next blank line *)
Definition section_of (on : bool) (lines body : list text) : Prop :=
  let mark := says (txt "chopper") (txt (if on then "on" else "off")) in
  exists before m after, lines = before ++ m :: body ++ after /\
  Forall (fun l => ~ mark l) before /\ mark m /\
  Forall (fun l => ~ spaces l) body /\
  (after = [] \/ exists l rest, after = l :: rest /\ spaces l).

(** the last place where "MFS" is followed by two digits *)
Definition version_at (l : text) (i : nat) (v : text) : Prop :=
  exists a b d1 d2, l = a ++ v ++ b /\ length a = i /\ v = txt "MFS" ++ [d1; d2] /\ digit d1 /\ digit d2.
Definition last_version (l v : text) : Prop :=
  exists i, version_at l i v /\ forall j w, version_at l j w -> j <= i.

(** ** tabulated functions *)
Definition cq : Type := Qc * Qc.
(** pairwise different frequencies, at least two *)
Definition tabulation (pts : list (Qc * cq)) : Prop := NoDup (map fst pts) /\ 2 <= length pts.
(** [p] and [q] are neighbours *)
Definition neighbours (pts : list (Qc * cq)) (p q : Qc * cq) : Prop :=
  In p pts /\ In q pts /\ (fst p < fst q)%Qc /\ forall r, In r pts -> (fst r <= fst p)%Qc \/ (fst q <= fst r)%Qc.
(** [f] cuts [x, y] in the ratio [t] and [v] is the value in the same ratio *)
Definition between (t : Qc) (p q : Qc * cq) (f : Qc) (v : cq) : Prop :=
  (f = (1 - t) * fst p + t * fst q /\
   fst v = (1 - t) * fst (snd p) + t * fst (snd q) /\ snd v = (1 - t) * snd (snd p) + t * snd (snd q))%Qc.
(** [g] is the tabulated function: the value of each row, linear between neighbours,
    ValueError outside the range of the table *)
Definition tabulates (pts : list (Qc * cq)) (g : Qc -> res cq) : Prop :=
  (forall p, In p pts -> g (fst p) = Ok (snd p)) /\
  (forall p q t f v, neighbours pts p q -> (0 <= t <= 1)%Qc -> between t p q f v -> g f = Ok v) /\
  (forall f, (forall p, In p pts -> (f < fst p)%Qc) \/ (forall p, In p pts -> (fst p < f)%Qc) -> g f = Err ValueError).

(** the frequency and the calibration of a row: frequency, module, phase *)
Definition row_point (cal_mp : Qc -> Qc -> Qc -> cq) (row : Qc * Qc * Qc) : Qc * cq :=
  (fst (fst row), cal_mp (fst (fst row)) (snd (fst row)) (snd row)).

(** the part of a file name before the extension *)
Definition stem_of (name st : text) : Prop :=
  (exists ext, st <> [] /\ ext <> [] /\ ~ In c_dot ext /\ name = st ++ c_dot :: ext) \/
  (st = name /\ forall a ext, name = a ++ c_dot :: ext -> a = [] \/ ext = [] \/ In c_dot ext).
