(** Property C126: estimates do not depend on when the runs were recorded. *)
From Coq Require Import Reals List String.
From Coquelicot Require Import Complex.
From Verif Require Import Base BaseLemmas Arith TagsModel SyncModel SetModel SpecSet FourierModel MestModel WeightModel RobustModel BiModel FullModel SpecFull
  UtilsModel SpecUtils WholeModel SpecWhole SpecRemote WholeExact WholeSamples SpecRunOrder RunOrderWhole RunOrderSamples.
Open Scope nat_scope.

Theorem C126_moved : forall (fo : fopts) (a : arguments) (X X' : recordings),
  library (ia_weights a) -> (match ia_remote_weights a with None => True | Some l => library l end) ->
  ia_prefilter a = None -> ia_remote_prefilter a = None ->
  wf_set X -> runs_moved X X' ->
  forall l_freq, match whole_impedance fo a X l_freq, whole_impedance fo a X' l_freq with
  | Ok out, Ok out' => Forall2 (same_estimate X X') out out'
  | Err x, Err x' => x' = x
  | _, _ => False
  end.
Proof. exact whole_moved. Qed.
Print Assumptions C126_moved.

(** robust estimates with two weights of the library and a remote reference *)
Example C126_example : match whole_impedance one_period robust_args two_runs [R1], whole_impedance one_period robust_args swapped_runs [R1] with
  | Ok out, Ok out' => Forall2 (same_estimate two_runs swapped_runs) out out'
  | Err x, Err x' => x' = x
  | _, _ => False
  end.
Proof. exact (C126_moved one_period robust_args two_runs swapped_runs robust_library I eq_refl eq_refl two_runs_wf swapped_moved [R1]). Qed.

(** least squares: the runs in the other order give 2/3 as well *)
Example C126_example_value : exists x, whole_impedance one_period (plain_args None) swapped_runs [R1] = Ok [x] /\ ir_z listU x = Values [[RtoC (2 / 3)%R]].
Proof.
  destruct (@whole_local one_period (plain_args None) two_runs [R1] (fun _ => [[RtoC (2 / 3)%R]]) [0] [1]) as (out & E & L & H); try reflexivity; try discriminate.
  - repeat (split; [first [reflexivity|exact I]|]); reflexivity.
  - intros f [<-|[]]. exists six, ([2; 2], [4; 4], [4; 4]), 4. split; [exact two_coeffs|]. split; [repeat constructor|].
    split; [apply six_recorded; intros c [<-|[<-|[]]]; repeat constructor|]. split; [exact six_separate|exact six_local].
  - destruct out as [|x [|y out]]; try discriminate. destruct (H 0 R1 x eq_refl eq_refl) as [Ez _].
    pose proof (C126_moved one_period (plain_args None) two_runs swapped_runs (plain_library None) I eq_refl eq_refl two_runs_wf swapped_moved [R1]) as M.
    rewrite E in M. destruct (whole_impedance one_period (plain_args None) swapped_runs [R1]) as [out'|]; [|destruct M].
    inversion M as [|? x' ? l' (Hz & _) M']; subst. inversion M'; subst. exists x'. split; [reflexivity|]. rewrite Hz. exact Ez.
Qed.
