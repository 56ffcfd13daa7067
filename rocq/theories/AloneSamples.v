(** Example recordings with two electric channels. *)
From Coq Require Import Reals Lra Lia.
From Coquelicot Require Import Complex.
From Verif Require Import Base BaseLemmas Arith TagsModel SyncModel SetModel FourierModel MestModel WeightModel RobustModel BiModel FullModel UtilsModel SpecUtils
  WholeModel SpecWhole SpecRemote WholeExact WholeSamples SpecAlone.
Local Open Scope R_scope.

Definition y3 : list R := [3; 0; -3; 0; 3; 0; -3; 0].
Definition two_set : recordings :=
  mkSet [run_of [yE; yB; y3] [unit_cal; unit_cal; unit_cal]] (mkTags 3 [("E", [0%nat; 2%nat]); ("B", [1%nat]); ("E0", [0%nat]); ("E2", [2%nat])]%string).
Definition two : list (list C) := [[RtoC 1; RtoC 1]; [RtoC 2; RtoC 0]; [RtoC 3; RtoC 3]].
Lemma two_coeffs : coefficients one_period two_set 1 = Ok (two, ([2%nat], [4%nat], [4%nat])).
Proof.
  change (coefficients one_period two_set 1) with (coefficients one_period (set_of [yE; yB; y3] [unit_cal; unit_cal; unit_cal]) 1).
  unfold yE, yB, y3. rewrite three_coeffs. unfold two, RtoC. repeat (f_equal; try lra).
Qed.
Ltac sums2 := cbv [correlation combination noise csum channel at_window two List.length List.map List.seq fold_right nth];
  unfold Cminus, Cplus, Copp, Cmult, Cconj, RtoC; cbn [fst snd].
Lemma two_recorded l : (forall c, In c l -> (c < 3)%nat) -> recorded two 2 l.
Proof. intros H c Hc. specialize (H c Hc). destruct c as [|[|[|c]]]; [| | |lia]; eexists; split; reflexivity. Qed.
Lemma two_separate : separate two 2 [1%nat].
Proof.
  intros v H [|j] Hj; [|cbn in Hj; lia]. specialize (H 0%nat ltac:(lia)). revert H. sums2. destruct (v 0%nat) as [x y]. cbn [fst snd].
  intros H; injection H as H1 H2. f_equal; lra.
Qed.
Lemma two_related : related two 2 [0%nat; 2%nat] [1%nat] [1%nat] [[RtoC (1 / 2)]; [RtoC (3 / 2)]].
Proof.
  split; [split; [reflexivity|repeat constructor]|]. intros [|[|i]] Hi; [| |cbn in Hi; lia]; intros [|k] Hk; try (cbn in Hk; lia); sums2; f_equal; lra.
Qed.
Lemma two_values : exists x, whole_impedance one_period (plain_args None) two_set [R1] = Ok [x] /\ ir_z listU x = Values [[RtoC (1 / 2)]; [RtoC (3 / 2)]].
Proof.
  destruct (whole_local (fo := one_period) (a := plain_args None) (X := two_set) (l := [R1]) (z := fun _ => [[RtoC (1 / 2)]; [RtoC (3 / 2)]]) (es := [0%nat; 2%nat]) (bs := [1%nat]))
    as (out & E1 & E2 & E3); try reflexivity; try discriminate.
  - repeat split.
  - intros f [<-|[]]. exists two, ([2%nat], [4%nat], [4%nat]), 2%nat. split; [exact two_coeffs|]. split; [lia|].
    split; [apply two_recorded; cbn; intuition lia|]. split; [exact two_separate|exact two_related].
  - destruct out as [|x [|? ?]]; try discriminate. exists x. split; [exact E1|]. exact (proj1 (E3 0%nat R1 x eq_refl eq_refl)).
Qed.
