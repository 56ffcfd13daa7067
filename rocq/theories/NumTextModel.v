(** Model of the texts of numbers and dates that the code relies on: the format [%.Pg] of
    Python (signalset.py:262, 722-723; weights.py:50, 69, 97, 147), [np.round],
    [datetime.utcfromtimestamp] and [str] of a datetime (signalset.py:257, 700).

    Simplifications: a number is the exact rational value of a finite float, so the text
    [-0] of the negative zero, [inf] and [nan] are left out; an instant outside the years
    1 to 9999 gives ValueError, also where the platform answers with OverflowError or
    OSError. *)
From Coq Require Import QArith.
From Verif Require Import Base.
Open Scope Z_scope. Local Open Scope string_scope. Local Open Scope list_scope. Local Open Scope Z_scope.

(** the [k] last decimal digits *)
Fixpoint dig (k : nat) (m : Z) : list Z :=
  match k with O => [] | S k => dig k (m / 10) ++ [m mod 10] end.
Definition dchar (d : Z) : ascii := ascii_of_nat (48 + Z.to_nat d).
Fixpoint dtext (l : list Z) : string :=
  match l with [] => EmptyString | d :: l => String (dchar d) (dtext l) end.
(** without the zeros at the end *)
Fixpoint strip (l : list Z) : list Z :=
  match l with
  | [] => []
  | d :: l => match strip l with [] => if d =? 0 then [] else [d] | r => d :: r end
  end.

(** the integer nearest to [a / d], the even one of two *)
Definition rhe (a d : Z) : Z :=
  let q := a / d in let r := a mod d in
  if 2 * r <? d then q else if d <? 2 * r then q + 1 else if Z.even q then q else q + 1.

(** the exponent of the first digit of [a / d], [a] and [d] positive *)
Fixpoint grow (f : nat) (a d x : Z) : Z :=
  match f with O => x | S f => if 10 * d <=? a then grow f a (10 * d) (x + 1) else x end.
Fixpoint shrink (f : nat) (a d x : Z) : Z :=
  match f with O => x | S f => if a <? d then shrink f (10 * a) d (x - 1) else x end.
Definition expo (a d : Z) : Z :=
  if d <=? a then grow (Z.to_nat (Z.log2 a + 1)) a d 0 else shrink (Z.to_nat (Z.log2 d + 1)) a d 0.

(** the first [p] digits as an integer and the exponent of the first one *)
Definition leading (p a d : Z) : Z * Z :=
  let x := expo a d in
  let m := if x <=? p - 1 then rhe (a * 10 ^ (p - 1 - x)) d else rhe a (d * 10 ^ (x - (p - 1))) in
  if m =? 10 ^ p then (10 ^ (p - 1), x + 1) else (m, x).

Definition frac (l : list Z) : string :=
  match strip l with [] => EmptyString | r => "." ++ dtext r end%string.
(** at least two digits *)
Definition two (n : Z) : string := dtext (dig (Nat.max 2 (Z.to_nat (expo n 1) + 1)) n).

(** the digits of a number with the exponent [e] *)
Definition fixed (e : Z) (digits : list Z) : string :=
  if 0 <=? e then (dtext (firstn (Z.to_nat e + 1) digits) ++ frac (skipn (Z.to_nat e + 1) digits))%string
  else ("0" ++ frac (repeat 0%Z (Z.to_nat (- e) - 1) ++ digits)%list)%string.
Definition sci (e : Z) (digits : list Z) : string :=
  let sign := if e <? 0 then "-" else "+" in
  (dtext (firstn 1 digits) ++ frac (skipn 1 digits) ++ "e" ++ sign ++ two (Z.abs e))%string.
(** ["%.Pg" % x] *)
Definition gtext (p : Z) (x : Q) : string :=
  let p := if p =? 0 then 1 else p in
  if Qnum x =? 0 then "0" else
  let '(m, e) := leading p (Z.abs (Qnum x)) (Zpos (Qden x)) in
  let digits := dig (Z.to_nat p) m in
  let sign := if Qnum x <? 0 then "-" else "" in
  (sign ++ (if ((-4 <=? e) && (e <? p))%Z then fixed e digits else sci e digits))%string.

(** [np.round] of a number, as an integer *)
Definition round (x : Q) : Z := rhe (Qnum x) (Zpos (Qden x)).

(** datetime._ord2ymd: the date of the day [n], the day 1 is the first day of the year 1 *)
Definition leap_days (leap : bool) (month : Z) : Z := if leap && (2 <? month) then 1 else 0.
Definition before_month (month : Z) : Z := nth (Z.to_nat month) [-1; 0; 31; 59; 90; 120; 151; 181; 212; 243; 273; 304; 334] 0.
Definition days_in (leap : bool) (month : Z) : Z :=
  nth (Z.to_nat month) [-1; 31; 28; 31; 30; 31; 30; 31; 31; 30; 31; 30; 31] 0 + (if leap && (month =? 2) then 1 else 0).
Definition ord2ymd (n : Z) : Z * Z * Z :=
  let n := n - 1 in
  let n400 := n / 146097 in let n := n mod 146097 in
  let n100 := n / 36524 in let n := n mod 36524 in
  let n4 := n / 1461 in let n := n mod 1461 in
  let n1 := n / 365 in let n := n mod 365 in
  let year := n400 * 400 + 1 + n100 * 100 + n4 * 4 + n1 in
  if (n1 =? 4) || (n100 =? 4) then (year - 1, 12, 31) else
  let leap := (n1 =? 3) && (negb (n4 =? 24) || (n100 =? 3)) in
  let month := Z.shiftr (n + 50) 5 in
  let preceding := before_month month + leap_days leap month in
  let '(month, preceding) := if n <? preceding then (month - 1, preceding - days_in leap (month - 1)) else (month, preceding) in
  (year, month, n - preceding + 1).

(** [datetime.utcfromtimestamp]: year, month, day, hour, minute, second *)
Definition utc (t : Z) : res (Z * Z * Z * (Z * Z * Z)) :=
  let n := t / 86400 + 719163 in
  let s := t mod 86400 in
  _ <- check ((1 <=? n) && (n <=? 3652059)) ValueError ;;
  Ok (ord2ymd n, (s / 3600, s mod 3600 / 60, s mod 60)).

(** [str] of a datetime without microseconds *)
Definition datetime_text (d : Z * Z * Z * (Z * Z * Z)) : string :=
  let '(y, mo, da, (h, mi, s)) := d in
  (dtext (dig 4 y) ++ "-" ++ dtext (dig 2 mo) ++ "-" ++ dtext (dig 2 da) ++ " " ++
   dtext (dig 2 h) ++ ":" ++ dtext (dig 2 mi) ++ ":" ++ dtext (dig 2 s))%string.

(** signalset.py:257, 700 [date] *)
Definition date (sec : Q) : res string := d <- utc (round sec) ;; Ok (datetime_text d).
