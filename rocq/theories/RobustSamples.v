(** Residual vectors for the examples of PropRobust.v. *)
From Coq Require Import Reals Lra.
From Coquelicot Require Import Complex.
From Verif Require Import Base BaseLemmas RobustModel SpecRobust RobustProofs RobustWeights.
Open Scope R_scope.

(** a residual vector with one nan; scale 1 / 0.44845 *)
Definition sample : list (option C) := [Some (RtoC 4); None; Some (RtoC (-1)); Some (RtoC 2)].
Lemma sample_scale : scale_of sample (100000 / 44845).
Proof.
  exists [RtoC 4; RtoC (-1); RtoC 2], 1. split; [reflexivity|]. split; [|lra]. simpl map. rewrite !Cmod_R.
  rewrite !(Rabs_pos_eq _ (ltac:(lra) : 0 <= 4)), !(Rabs_pos_eq _ (ltac:(lra) : 0 <= 2)), (Rabs_left (-1)) by lra. exists 2. split.
  - exists [- -1; 2; 4]. split; [|split].
    + transitivity [- -1; 4; 2]; [constructor|]. constructor. constructor.
    + repeat (constructor; try lra).
    + left. exists 1%nat. split; reflexivity.
  - simpl map. rewrite (Rabs_pos_eq (4 - 2)), (Rabs_left (- -1 - 2)), (Rabs_pos_eq (2 - 2)) by lra.
    exists [2 - 2; - (- -1 - 2); 4 - 2]. split; [|split].
    + symmetry. change [4 - 2; - (- -1 - 2); 2 - 2] with (rev [2 - 2; - (- -1 - 2); 4 - 2]). apply Permutation_rev.
    + repeat (constructor; try lra).
    + left. exists 1%nat. split; [reflexivity|]. simpl. f_equal. lra.
Qed.

(** three residuals of equal modulus: the scale is zero *)
Definition flat : list (option C) := [Some (RtoC 1); Some (RtoC 1); Some (RtoC 0)].
Lemma flat_mostly : mostly_within (map Cmod [RtoC 1; RtoC 1; RtoC 0]) 1 1.
Proof.
  exists [1; 1], [0]. split; [|split; [simpl; lia|repeat (constructor; try lra)]].
  simpl map. rewrite !Cmod_R, Rabs_R0, Rabs_R1. reflexivity.
Qed.
Lemma flat_scale : scale_of flat 0.
Proof.
  destruct (scale_exists flat) as (s & Hs); [exists (RtoC 1); left; reflexivity|].
  destruct (scale_within flat [RtoC 1; RtoC 1; RtoC 0] s 1 1 eq_refl flat_mostly Hs) as [H0 H1]. replace 0 with s by lra. exact Hs.
Qed.

(** four residuals without a nan; scale 1/2 / 0.44845 *)
Definition four : list (option C) := [Some (RtoC 1); Some (RtoC (-1)); Some (RtoC 2); Some (RtoC (-2))].
Lemma four_scale : scale_of four (50000 / 44845).
Proof.
  exists [RtoC 1; RtoC (-1); RtoC 2; RtoC (-2)], (1 / 2). split; [reflexivity|]. split; [|lra]. simpl map. rewrite !Cmod_R.
  rewrite (Rabs_pos_eq 1), (Rabs_pos_eq 2), (Rabs_left (-1)), (Rabs_left (-2)) by lra. exists (3 / 2). split.
  - exists [1; - -1; 2; - -2]. split; [reflexivity|split].
    + repeat (constructor; try lra).
    + right. exists 1%nat, 1, 2. repeat split; simpl; try lra. f_equal. lra.
  - simpl map. rewrite (Rabs_left (1 - 3 / 2)), (Rabs_left (- -1 - 3 / 2)), (Rabs_pos_eq (2 - 3 / 2)), (Rabs_pos_eq (- -2 - 3 / 2)) by lra.
    exists [- (1 - 3 / 2); - (- -1 - 3 / 2); 2 - 3 / 2; - -2 - 3 / 2]. split; [reflexivity|split].
    + repeat (constructor; try lra).
    + right. exists 1%nat, (1 / 2), (1 / 2). repeat split; simpl; try lra; f_equal; lra.
Qed.
Definition four_weight : R := 3 / 4 * (50000 / 44845).
Lemma four_huber : huber (3 / 2) four = [Fin 1; Fin 1; Fin four_weight; Fin four_weight].
Proof.
  unfold huber. cbv zeta. rewrite (scale_spec _ _ four_scale). unfold four, vnorm, four_weight. simpl map. rewrite !Cmod_R.
  rewrite (Rabs_pos_eq 1), (Rabs_pos_eq 2), (Rabs_left (-1)), (Rabs_left (-2)) by lra. replace (- -1) with 1 by lra. replace (- -2) with 2 by lra. simpl.
  destruct (Req_EM_T 1 0), (Req_EM_T 2 0); try (exfalso; lra). unfold xmin1.
  rewrite (Rmin_left 1 (3 / 2 * (50000 / 44845) / 1)), (Rmin_right 1 (3 / 2 * (50000 / 44845) / 2)) by lra.
  replace (3 / 2 * (50000 / 44845) / 2) with (3 / 4 * (50000 / 44845)) by lra. reflexivity.
Qed.
