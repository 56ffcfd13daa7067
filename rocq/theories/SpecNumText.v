(** Specification vocabulary for the texts of numbers and dates. *)
From Coq Require Import QArith Qabs.
From Verif Require Import Base.
Open Scope Z_scope. Local Open Scope string_scope. Local Open Scope list_scope. Local Open Scope Z_scope.

(** ** numbers *)
Definition tenth (k : Z) : Q := Qpower (10 # 1) k.
(** a decimal with at most [p] digits *)
Definition short (p : Z) (y : Q) : Prop := exists m k, Z.abs m < 10 ^ p /\ (y == inject_Z m * tenth k)%Q.
(** [v] is [x] rounded to [p] digits: no decimal with [p] digits is closer to [x]; when
    there is another one just as close, the last digit of [v] is even *)
Definition rounded (p : Z) (x v : Q) : Prop :=
  short p v /\
  (forall y, short p y -> (Qabs (v - x) <= Qabs (y - x))%Q) /\
  (forall y, short p y -> (Qabs (y - x) == Qabs (v - x))%Q -> (y == v)%Q \/
     exists m k, Z.abs (2 * m) <= 10 ^ p /\ (v == inject_Z (2 * m) * tenth k)%Q /\ (Qabs (y - v) == tenth k)%Q).

(** the number with the given digits, and their text *)
Definition number (l : list Z) : Z := fold_left (fun a d => 10 * a + d) l 0.
Definition digits_text (l : list Z) : string :=
  string_of_list_ascii (map (fun d => nth (Z.to_nat d) (list_ascii_of_string "0123456789") " "%char) l).
Definition are_digits (l : list Z) : Prop := forall d, In d l -> 0 <= d <= 9.

(** [t] is the usual text of [v] for [p] digits: a sign for negative numbers, no useless
    zero, an exponent of at least two digits for the numbers below 1/10000 and from the
    [p]-th power of ten on *)
Definition usual (p : Z) (v : Q) : Prop := (v == 0)%Q \/ (tenth (-4) <= Qabs v /\ Qabs v < tenth p)%Q.
Definition written (p : Z) (v : Q) (t : string) : Prop :=
  exists (neg : bool) (whole part : list Z) (exp : option (bool * list Z)),
  are_digits whole /\ are_digits part /\
  t = ((if neg then "-" else "") ++ digits_text whole ++ match part with [] => "" | _ => "." ++ digits_text part end ++
       match exp with Some (low, l) => "e" ++ (if low then "-" else "+") ++ digits_text l | None => "" end)%string /\
  (v == (if neg then -1 # 1 else 1 # 1) * inject_Z (number (whole ++ part)) *
        tenth (match exp with Some (true, l) => - number l | Some (false, l) => number l | None => 0 end - Z.of_nat (length part)))%Q /\
  (neg = true <-> v < 0)%Q /\
  (whole = [0] \/ exists d l, whole = d :: l /\ d <> 0) /\
  last part 1 <> 0 /\
  match exp with
  | None => usual p v
  | Some (_, l) => ~ usual p v /\ (exists d, whole = [d] /\ d <> 0) /\ are_digits l /\ (2 <= length l)%nat /\ ((3 <= length l)%nat -> hd 0 l <> 0)
  end.

(** ** dates *)
(** years of 366 days *)
Definition is_leap (y : Z) : Prop := (4 | y) /\ (~ (100 | y) \/ (400 | y)).
Definition month_days (y m n : Z) : Prop :=
  (In m [1; 3; 5; 7; 8; 10; 12] /\ n = 31) \/ (In m [4; 6; 9; 11] /\ n = 30) \/
  (m = 2 /\ ((is_leap y /\ n = 29) \/ (~ is_leap y /\ n = 28))).
(** the day after *)
Definition next_day (a b : Z * Z * Z) : Prop :=
  let '(y, m, d) := a in
  exists n, month_days y m n /\ 1 <= d <= n /\
  b = if d <? n then (y, m, d + 1) else if m <? 12 then (y, m + 1, 1) else (y + 1, 1, 1).
(** [day n a]: [a] is the date [n] days after the first of January 1970, or [- n] days before *)
Inductive day : Z -> Z * Z * Z -> Prop :=
| day_epoch : day 0 (1970, 1, 1)
| day_after : forall n a b, day n a -> next_day a b -> day (n + 1) b
| day_before : forall n a b, day n b -> next_day a b -> day (n - 1) a.
(** the text of an instant, a number of seconds since the beginning of 1970 *)
Definition instant (t : Z) (s : string) : Prop :=
  exists n y m d h mi se ly lm ld lh lmi ls,
  day n (y, m, d) /\ t = 86400 * n + 3600 * h + 60 * mi + se /\ 0 <= h < 24 /\ 0 <= mi < 60 /\ 0 <= se < 60 /\ 1 <= y <= 9999 /\
  (forall k l, In (k, l) [(y, ly); (m, lm); (d, ld); (h, lh); (mi, lmi); (se, ls)] -> are_digits l /\ number l = k) /\
  length ly = 4%nat /\ Forall (fun l => length l = 2%nat) [lm; ld; lh; lmi; ls] /\
  s = (digits_text ly ++ "-" ++ digits_text lm ++ "-" ++ digits_text ld ++ " " ++
       digits_text lh ++ ":" ++ digits_text lmi ++ ":" ++ digits_text ls)%string.
(** the nearest integer, the even one of two *)
Definition nearest (x : Q) (n : Z) : Prop :=
  (Qabs (inject_Z n - x) <= 1 # 2)%Q /\ ((Qabs (inject_Z n - x) == 1 # 2)%Q -> Z.Even n).
