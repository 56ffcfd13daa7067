(** Vocabulary for runs recorded at other times. *)
From Coq Require Import Reals Permutation.
From Coquelicot Require Import Complex.
From Verif Require Import Base Arith TagsModel SyncModel SetModel FourierModel MestModel BiModel UtilsModel WholeModel.

(** the same samples, calibrations and sampling rate; any start *)
Definition same_run (s s' : sync RA R calibration) : Prop :=
  s_data s' = s_data s /\ s_cal s' = s_cal s /\ s_rate s' = s_rate s.
(** the same channels and the same runs, recorded at other times, in any order *)
Definition runs_moved (X X' : recordings) : Prop :=
  ss_tags X' = ss_tags X /\ exists runs, Permutation (ss_signals X) runs /\ Forall2 same_run runs (ss_signals X').
(** times at the same place of the same run *)
Definition same_window (X X' : recordings) (t t' : R) : Prop :=
  exists s s', In s (ss_signals X) /\ In s' (ss_signals X') /\ same_run s s' /\ (t - s_start s = t' - s_start s')%R.
(** lists of times of the same windows, the second in any order *)
Definition same_windows (X X' : recordings) (ts ts' : list R) : Prop :=
  exists ps, Forall (fun p => same_window X X' (fst p) (snd p)) ps /\ ts = map fst ps /\ Permutation ts' (map snd ps).
(** the same transfer functions, errors and remote transfer functions, and the same
    rejected windows *)
Definition same_estimate (X X' : recordings) (r r' : result) : Prop :=
  ir_z listU r' = ir_z listU r /\ ir_err listU r' = ir_err listU r /\ ir_T listU r' = ir_T listU r /\
  Forall2 (same_windows X X') (ir_ivt listU r) (ir_ivt listU r').
