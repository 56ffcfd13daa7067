(** Vocabulary for other clocks: recordings with another origin and unit of time. *)
From Coq Require Import Reals.
From Coquelicot Require Import Complex.
From Verif Require Import Base Arith TagsModel SyncModel SetModel MestModel BiModel UtilsModel WholeModel.

(** the time [t] on the other clock: its unit is [u] times the first one, its zero is
    the time [- u * d] of the first one *)
Definition on_clock (u d t : R) : R := Rplus (Rdiv t u) d.
(** the same samples with the times of the other clock; a frequency [f] is [u * f] there *)
Definition run_on_clock (u d : R) (s s' : sync RA R calibration) : Prop :=
  s_data s' = s_data s /\ s_rate s' = Rmult u (s_rate s) /\ s_start s' = on_clock u d (s_start s) /\
  List.Forall2 (fun k k' : calibration => forall f, k' (Rmult u f) = k f) (s_cal s) (s_cal s').
Definition recordings_on_clock (u d : R) (X X' : recordings) : Prop :=
  ss_tags X' = ss_tags X /\ List.Forall2 (run_on_clock u d) (ss_signals X) (ss_signals X').
(** only the times of the rejected windows change *)
Definition result_on_clock (u d : R) (r r' : result) : Prop :=
  ir_z listU r' = ir_z listU r /\ ir_err listU r' = ir_err listU r /\ ir_T listU r' = ir_T listU r /\
  ir_ivt listU r' = List.map (List.map (on_clock u d)) (ir_ivt listU r).
