(** Model of the [calibrations] argument of [SyncSignal],
    src/razorback/signalset.py:677-697: functions of the frequency, numbers, or None.
    The other files take calibrations that are functions already. *)
From Verif Require Import Base Arith SyncModel FourierModel.

Section CalArg.
Context {A : Arith} {V C : Type}.
Variable one : C.                                   (* 1. *)

(** a calibration function: a value, None, or an exception *)
Definition calfun : Type := num A -> res (option C).
Inductive calarg : Type :=
| CalFun (f : calfun)        (* callable(cal) *)
| CalNum (c : C)             (* a number *)
| CalNone.                   (* None inside the list *)

(** signalset.py:683-686: what is not callable becomes a constant function *)
Definition wrapped (c : calarg) : calfun :=
  match c with
  | CalFun f => f
  | CalNum c => fun _ => Ok (Some c)
  | CalNone => fun _ => Ok None
  end.

(** signalset.py:677-697; None and an empty list stand for ones (line 681-682) *)
Definition sync_make (data : list (list V)) (rate start : num A) (cals : option (list calarg)) : res (sync A V calfun) :=
  sync_new (wrapped (CalNum one)) data rate start (option_map (map wrapped) cals).
End CalArg.
Arguments CalFun {A C}. Arguments CalNum {A C}. Arguments CalNone {A C}.
