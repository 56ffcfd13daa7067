(** Example recordings for another clock: minutes instead of seconds, from another origin. *)
From Coq Require Import Reals Lra.
From Coquelicot Require Import Complex.
From mathcomp Require Import all_ssreflect all_algebra.
From Verif Require Import WlseModel CField.
From Verif Require Import Base BaseLemmas Arith TagsModel SyncModel SetModel FourierModel MestModel WeightModel RobustModel BiModel UtilsModel SpecUtils
  WholeModel WholeRemote WholeSamples SpecClock.
Set Implicit Arguments.
Unset Strict Implicit.
Unset Printing Implicit Defensive.
Import GRing.Theory.
Local Open Scope ring_scope.

(** the second window is rejected by the prefilter *)
Definition late_args : arguments :=
  mkIargs (k := listK) (St := heap listW) [:: None] (Some (fun _ _ => Ok [:: 1%Z])) None None None "E" "B"
    (mkOpts listK (Rdiv 1 1000) 100%Z (Rdiv 1 1000)) false true true.
Definition minutes_run : sync RA R calibration := mkSync [:: yE; yB; yE] [:: unit_cal; unit_cal; unit_cal] (IZR 240 : num RA) (IZR 10 : num RA) 8%nat.
Definition minutes_set : recordings := mkSet [:: minutes_run] (ss_tags plain_set).
Lemma minutes : recordings_on_clock 60 10 plain_set minutes_set.
Proof.
split=> //; constructor; last by constructor.
split=> //; split; first by rewrite /=; lra.
split; first by rewrite /= /on_clock; lra.
by repeat constructor.
Qed.

Lemma one_row : l_wlse [:: RtoC 1] [:: [:: RtoC 2]] None = Ok [:: RtoC (1 / 2)].
Proof.
have := @l_wlse_ok 1 [:: [:: RtoC 2]] [:: RtoC 1] [:: RtoC (1 / 2)] erefl erefl erefl erefl; apply.
- rewrite unitmxE det_mx11 mxE big_ord1 !mxE /= unitfE; apply/eqP; rewrite /GRing.mul /= /cjC; unfold Cmult, Cconj, RtoC; cbn [fst snd] => H; injection H => _ E; change (Rminus (Rmult 2 2) (Rmult (Ropp 0) 0) = IZR 0) in E; lra.
- apply/matrixP => i j; rewrite !mxE !big_ord1 !mxE !big_ord1 !mxE !ord1 /=.
  rewrite /GRing.mul /= /cjC /=; unfold Cmult, Cconj, RtoC; cbn [fst snd]; congr pair; rewrite /entry /=; lra.
Qed.

Lemma late : exists x, whole_impedance one_period late_args plain_set [:: R1] = Ok [:: x] /\ ir_z listU x = Values [:: [:: RtoC (1 / 2)]] /\
  ir_ivt listU x = [:: [:: (Rdiv 3 2)]].
Proof.
rewrite /whole_impedance /impedance /= /impedance_one /=.
rewrite plain_coeffs /=.
rewrite /impedance_coeffs /= /estimate /= /transfer_function /= /solve /=.
rewrite one_row /= /l_error.
have -> : l_gram [:: [:: RtoC 2; RtoC 0]] \in unitmx.
  rewrite unitmxE det_mx11 mxE /= !big_ord_recl big_ord0 /entry /= unitfE; apply/eqP.
  rewrite /GRing.mul /GRing.add /GRing.zero /= /cjC; unfold Cplus, Cmult, Cconj, RtoC; cbn [fst snd] => H; injection H; lra.
eexists; split; first by reflexivity.
by split; rewrite //=; repeat congr cons; lra.
Qed.
