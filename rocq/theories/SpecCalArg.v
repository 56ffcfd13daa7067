(** Specification vocabulary for the calibrations given to a signal. *)
From Verif Require Import Base Arith CalArgModel.

(** the value at a frequency: a number is a value at all frequencies, None never is *)
Definition has_value {A : Arith} {C} (f : num A) (c : @calarg A C) (v : C) : Prop :=
  match c with CalFun g => g f = Ok (Some v) | CalNum x => v = x | CalNone => False end.
(** channel by channel, the coefficients [l] are the coefficients [raw] divided by the
    value of the calibration *)
Definition calibrated {A : Arith} {C} (cdiv : C -> C -> C) (f : num A) (cals : list (@calarg A C)) (raw l : list (list C)) : Prop :=
  length raw = length cals /\ length l = length cals /\
  forall i c r x, nth_error cals i = Some c -> nth_error raw i = Some r -> nth_error l i = Some x ->
  exists v, has_value f c v /\ length x = length r /\ forall j a, nth_error r j = Some a -> nth_error x j = Some (cdiv a v).
