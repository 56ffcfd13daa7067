(** The real formulation of a complex transfer problem (C61). *)
From Coq Require Import Reals Lra.
From Coquelicot Require Import Complex.
From Verif Require Import Base BaseLemmas RealPbModel SpecRealPb RealPbProofs.
Open Scope R_scope.

Notation predC := (prediction Cplus Cmult (RtoC 0)).
Notation predR := (prediction Rplus Rmult 0).

(** the exact solutions correspond *)
Theorem C61_solutions : forall n z inputs output, length z = length inputs -> Forall (fun row => length row = n) inputs ->
  (output = predC n z inputs <-> real_line output = predR (2 * n) (real_line z) (real_inputs inputs)).
Proof.
  intros n z inputs output E F. rewrite (prediction_real n z inputs E F). split; [intros ->; reflexivity|apply real_line_inj].
Qed.
Print Assumptions C61_solutions.

(** decoding gives z back, and every real vector of even length comes from one z *)
Theorem C61_decoding : forall z, decode (real_line z) = z /\
  forall n x, length x = (2 * n)%nat -> length (decode x) = n /\ real_line (decode x) = x.
Proof. intros z. split; [apply decode_encode|]. intros n x H. destruct (encode_decode n x H). auto. Qed.
Print Assumptions C61_decoding.

(** the sums of squared residuals are the same, so the plain least-square problems
    are the same *)
Theorem C61_residuals : forall n z inputs output, length z = length inputs -> Forall (fun row => length row = n) inputs -> length output = n ->
  sumsq Rabs (zipw Rminus (real_line output) (predR (2 * n) (real_line z) (real_inputs inputs))) =
  sumsq Cmod (zipw Cminus output (predC n z inputs)).
Proof.
  intros n z inputs output E F L. rewrite (prediction_real n z inputs E F), residual_real; [apply square_real|].
  rewrite prediction_length by assumption. exact L.
Qed.
Print Assumptions C61_residuals.

(** two samples, one input *)
Example C61_nonvacuous : [(-2, 1); (-1, 1)] = predC 2 [Ci] [[(1, 2); (1, 1)]].
Proof. unfold prediction, zipw, Ci, Cmult, Cplus, RtoC. simpl. repeat f_equal; ring. Qed.
