(** Property C120: estimates do not depend on the clock of the recordings. *)
From Coq Require Import Reals List String.
From Coquelicot Require Import Complex.
From Verif Require Import Base BaseLemmas Arith TagsModel SyncModel SetModel FourierModel MestModel WeightModel RobustModel BiModel UtilsModel WholeModel
  WholeSamples SpecClock ClockProofs ClockSamples.
Open Scope nat_scope.

(** ** C120: another origin and another unit of time *)
(** whatever the weights and the prefilters: the same estimates and errors at the same
    frequencies in the new unit, the same exceptions; the times of the rejected windows
    are those of the other clock *)
Theorem C120_clock : forall (u d : R), (0 < u)%R -> forall (fo : fopts) (a : arguments) (X X' : recordings) (l_freq : list R),
  recordings_on_clock u d X X' ->
  match whole_impedance fo a X l_freq, whole_impedance fo a X' (map (Rmult u) l_freq) with
  | Ok out, Ok out' => Forall2 (result_on_clock u d) out out'
  | Err x, Err x' => x = x'
  | _, _ => False
  end.
Proof. exact whole_clock. Qed.
Print Assumptions C120_clock.

(** four samples by second are 240 by minute; the second window, rejected by a
    prefilter, has its centre after a second and a half, that is 1/40 of a minute *)
Example C120_example : recordings_on_clock 60 10 plain_set minutes_set /\
  (exists x, whole_impedance one_period late_args plain_set [R1] = Ok [x] /\
     ir_z listU x = Values [[RtoC (1 / 2)%R]] /\ ir_ivt listU x = [[(3 / 2)%R]]) /\
  exists x, whole_impedance one_period late_args minutes_set [(60 * R1)%R] = Ok [x] /\
     ir_z listU x = Values [[RtoC (1 / 2)%R]] /\ ir_ivt listU x = [[(3 / 2 / 60 + 10)%R]].
Proof.
  split; [exact minutes|]. split; [exact late|]. destruct late as (x & E & Ez & Ei).
  pose proof (C120_clock 60 10 ltac:(apply IZR_lt; reflexivity) one_period late_args plain_set minutes_set [R1] minutes) as H. rewrite E in H.
  cbn [map] in H. destruct (whole_impedance one_period late_args minutes_set [(60 * R1)%R]) as [out|]; [|contradiction].
  inversion H as [|? x' ? l (Hz & _ & _ & Hi) Hl]; subst. inversion Hl; subst. exists x'. split; [reflexivity|]. split; [rewrite Hz; exact Ez|].
  rewrite Hi, Ei. reflexivity.
Qed.
