(** Arithmetic on times and sampling rates, as a parameter of the model.

    The code computes times with Python/numpy floats. The model is written
    against the record [Arith] (operations only, no laws), with two instances:
    - [QA]: exact rational arithmetic (canonical rationals [Qc]);
    - [FA]: IEEE-754 binary64, round to nearest even (Flocq), see FloatArith.v.
    Every finite float is a rational, so [QA] covers all finite inputs and
    idealises rounding away; [FA] keeps rounding, infinities and NaN. *)
From Verif Require Import Base.
From Coq Require Import QArith Qcanon Qround.

Record Arith : Type := mkArith {
  num : Type;
  nadd : num -> num -> num;
  nsub : num -> num -> num;
  nmul : num -> num -> num;
  (* division of floats; Python raises on a zero divisor, the model tests it *)
  ndiv : num -> num -> num;
  nabs : num -> num;
  nleb : num -> num -> bool;
  nltb : num -> num -> bool;
  neqb : num -> num -> bool;
  nzero : num;
  n1 : num;
  (* float(int) *)
  nofZ : Z -> num;
  (* int(np.floor(x)), int(np.ceil(x)): may raise on inf / nan *)
  nfloor : num -> res Z;
  nceil : num -> res Z;
  (* np.isfinite *)
  nfinite : num -> bool;
  (* default tolerances of np.isclose: rtol=1e-5, atol=1e-8 *)
  nrtol : num;
  natol : num
}.

(** Python's builtin [max(a, b)] and [min(a, b)]: the first argument unless the
    second is strictly greater / smaller. *)
Definition pmax {A : Arith} (a b : num A) : num A := if nltb A a b then b else a.
Definition pmin {A : Arith} (a b : num A) : num A := if nltb A b a then b else a.

(** ** Exact instance *)
Definition Qcfloor (x : Qc) : Z := Qfloor (this x).
Definition Qcceil (x : Qc) : Z := Qceiling (this x).
Definition Qcleb (x y : Qc) : bool := Qle_bool (this x) (this y).
Definition Qcltb (x y : Qc) : bool := negb (Qle_bool (this y) (this x)).
Definition Qceqb (x y : Qc) : bool := Qeq_bool (this x) (this y).
Definition Qcabs' (x : Qc) : Qc := if Qcltb x (Q2Qc 0) then (- x)%Qc else x.
Definition ZtoQc (z : Z) : Qc := Q2Qc (inject_Z z).

Definition QA : Arith := {|
  num := Qc;
  nadd := Qcplus; nsub := Qcminus; nmul := Qcmult; ndiv := Qcdiv; nabs := Qcabs';
  nleb := Qcleb; nltb := Qcltb; neqb := Qceqb;
  nzero := Q2Qc 0; n1 := Q2Qc 1; nofZ := ZtoQc;
  nfloor := fun x => Ok (Qcfloor x);
  nceil := fun x => Ok (Qcceil x);
  nfinite := fun _ => true;
  nrtol := Q2Qc (1 # 100000);
  natol := Q2Qc (1 # 100000000)
|}.
