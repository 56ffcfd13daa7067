(** A concrete run of the real formulation: one input, four rows. *)
From Coq Require Import Reals.
From Coquelicot Require Import Complex.
From mathcomp Require Import all_ssreflect all_algebra.
From Verif Require Import WlseModel CField.
From Verif Require Import Base Arith MestModel WeightModel BiModel FullModel SpecFull ExactProofs FullSamples RealProbModel SpecRealProb RealProbProofs.
Set Implicit Arguments.
Unset Strict Implicit.
Unset Printing Implicit Defensive.
Import GRing.Theory.
Local Open Scope ring_scope.

Definition ones : list (list C) := [[RtoC 1; RtoC 1; RtoC 1; RtoC 1]].
Lemma ones_rows : rows_of 1 4 ones = fourB.
Proof. by rewrite /rows_of /fourB /oneR /=; congr [_; _; _; _]; apply/matrixP => i j; rewrite !ord1 !mxE. Qed.

Lemma real_ones (o : opts (fullK 2)) (st : heap (fullW 1)) : fst (real_prob (inputs := ones) o [[Ci; Ci; Ci; Ci]] [None] None IvNone st) = Ok [(Ci%:M, [])].
Proof.
have N : [Ci; Ci; Ci; Ci] = noise_free fourB (Ci%:M : 'cV[C]_1).
  by rewrite /noise_free /= /oneR mul1mx mxE mulr1n.
have := @real_prob_plain _ ones 4 fullO o [[Ci; Ci; Ci; Ci]] 0 IvNone IvNone st.
rewrite [rows_of _ _ _]ones_rows [X in transfer_function _ [X] _]N.
have R := noise_free_ls fullO (Ci%:M : 'cV[C]_1) st four_rank; cbn [weightings List.map option_map] in R.
rewrite R => H; last by [].
have F1 : List.Forall (fun line : list C => List.length line = 4%nat) ones by repeat constructor.
have F2 : List.Forall (fun line : list C => List.length line = 4%nat) [[Ci; Ci; Ci; Ci]] by repeat constructor.
have N1 : ones <> [] by [].
have {}H := H N1 F1 F2 erefl; clear F1 F2.
move: H; cbn [fst repeat List.length]; generalize (fst (real_prob (inputs := ones) o [[Ci; Ci; Ci; Ci]] [None] None IvNone st)).
case=> [rs|x] F; last by case: F.
inversion F as [|r [z l] ? l' [E1 E2] F2]; subst; inversion F2; subst.
by cbn in E1, E2; injection E1 => <-; rewrite E2.
Qed.

Lemma real_example :
  let outs := [[Ci; Ci; Ci; Ci]] in
  (forall o (st : heap (fullW 1)), fst (real_prob (inputs := ones) o outs [None] None IvNone st) = Ok [(Ci%:M, [])]) /\
  (forall o (st : heap (fullW 1)), fst (real_prob (inputs := ones) o [[Ci]] [None] None IvNone st) = Ok [(Ci%:M, [])]) /\
  leaves_out_both (IvFlat [0; 2]%Z) (IvFlat [0; 1; 4; 5]%Z) /\ List.Forall (fun line => List.length line = 4%nat) outs.
Proof.
split; [exact: real_ones|]; split; [|split].
- move=> o st; rewrite (@real_prob_single _ ones o [[Ci; Ci; Ci; Ci]] [[Ci]] _ _ _ _ 4); [exact: real_ones|by []|by repeat constructor|].
  by constructor; [right; exists Ci|constructor].
- by split=> [i [<-|[<-|[]]]|].
- by repeat constructor.
Qed.
