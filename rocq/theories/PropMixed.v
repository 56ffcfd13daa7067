(** Property C123: complete estimates from channels that are combined with each other. *)
From Coq Require Import Reals List String Lra.
From Coquelicot Require Import Complex.
From Verif Require Import Base BaseLemmas Arith TagsModel SyncModel SetModel FourierModel MestModel WeightModel RobustModel BiModel FullModel PrefilterModel
  UtilsModel SpecUtils WholeModel SpecWhole SpecRemote SpecMixed WholeSamples MixImpedance MixWhole MixSamples PropWhole.
Open Scope nat_scope.

(** C123: without remote reference. The magnetic channels are replaced by combinations of
    each other, the electric channel [i] by [c i] times itself plus a combination of
    the magnetic ones. *)
Theorem C123_local :
  forall (fo : fopts) (a : arguments) (X X' : recordings) (es bs : list nat) (n : nat)
    (A : R -> nat -> nat -> C) (M : R -> nat -> nat -> C) (c : R -> nat -> C) (Z0 : R -> nat -> nat -> C) (l_freq : list R),
  library (ia_weights a) -> remote_name a = None ->
  t_get (ss_tags X) (ia_elec a) = Ok es -> t_get (ss_tags X) (ia_mag a) = Ok bs -> bs <> [] ->
  (forall f, In f l_freq -> recordings_mixed f n (A f) X X' /\ invertible (length bs) (M f) /\ (forall i, c f i <> RtoC 0) /\
     inputs_mixed n (A f) bs (M f) /\ outputs_mixed n (A f) es bs (c f) (Z0 f) /\
     (ia_prefilter a = None \/ combination_free (ia_prefilter a) /\ forall i j, Z0 f i j = RtoC 0)) ->
  match whole_impedance fo a X l_freq, whole_impedance fo a X' l_freq with
  | Ok out, Ok out' => length out = length l_freq /\ length out' = length l_freq /\
      forall i f x x', nth_error l_freq i = Some f -> nth_error out i = Some x -> nth_error out' i = Some x' ->
        local_result es bs (M f) (c f) (Z0 f) x x'
  | Err x, Err x' => x' = x
  | _, _ => False
  end.
Proof. exact whole_local. Qed.
Print Assumptions C123_local.

(** C123: with remote reference, the remote channels being replaced by combinations of
    each other *)
Theorem C123_remote :
  forall (fo : fopts) (a : arguments) (X X' : recordings) (es bs rs : list nat) (r : string) (n : nat)
    (A : R -> nat -> nat -> C) (M : R -> nat -> nat -> C) (l_freq : list R),
  library (ia_weights a) -> (match ia_remote_weights a with None => True | Some l => library l end) -> combination_free (remote_prefilter a) ->
  t_get (ss_tags X) (ia_elec a) = Ok es -> t_get (ss_tags X) (ia_mag a) = Ok bs ->
  remote_name a = Some r -> t_get (ss_tags X) r = Ok rs -> rs <> [] ->
  (forall f, In f l_freq -> recordings_mixed f n (A f) X X' /\ invertible (length rs) (M f) /\
     inputs_mixed n (A f) rs (M f) /\ kept n (A f) es /\ kept n (A f) bs) ->
  match whole_impedance fo a X l_freq, whole_impedance fo a X' l_freq with
  | Ok out, Ok out' => length out = length l_freq /\ length out' = length l_freq /\
      forall i f x x', nth_error l_freq i = Some f -> nth_error out i = Some x -> nth_error out' i = Some x' ->
        remote_result bs rs (M f) x x'
  | Err x, Err x' => x' = x
  | _, _ => False
  end.
Proof. exact whole_remote. Qed.
Print Assumptions C123_remote.

(** the determination filter is such a prefilter *)
Theorem C123_filter : forall cod_min cod_max size, combination_free (Some (l_cod_filter cod_min cod_max size)).
Proof. exact filter_combination_free. Qed.
Print Assumptions C123_filter.

(** the magnetic sensors turned by a right angle, three times the first magnetic channel
    added to the electric one: [1/2, 1] becomes [-1, 7/2] *)
Example C123_local_example :
  (exists x, whole_impedance one_period (plain_args None) pair_set [R1] = Ok [x] /\ ir_z listU x = Values [[RtoC (1 / 2)%R; RtoC 1]]) /\
  exists x, whole_impedance one_period (plain_args None) turned_set [R1] = Ok [x] /\ ir_z listU x = Values [[RtoC (-1)%R; RtoC (7 / 2)%R]].
Proof.
  assert (B : exists x, whole_impedance one_period (plain_args None) pair_set [R1] = Ok [x] /\ ir_z listU x = Values [[RtoC (1 / 2)%R; RtoC 1]]).
  { destruct (C115_local one_period (plain_args None) pair_set [R1] (fun _ => [[RtoC (1 / 2)%R; RtoC 1]]) [0] [1; 2]) as (out & E & L & H);
      try reflexivity; try discriminate.
    - repeat (split; [first [reflexivity|exact I]|]); reflexivity.
    - intros f [<-|[]]. exists pairc, ([2], [4], [4]), 2. split; [exact pair_coeffs|]. split; [repeat constructor|].
      split; [apply pair_recorded; intros c [<-|[<-|[<-|[]]]]; repeat constructor|].
      split; [exact pair_separate|exact pair_related].
    - destruct out as [|x [|y out]]; try discriminate. exists x. split; [exact E|]. apply (H 0 R1 x eq_refl eq_refl). }
  split; [exact B|]. destruct B as (x & E & Z).
  pose proof (C123_local one_period (plain_args None) pair_set turned_set [0] [1; 2] 3 (fun _ => turn_all) (fun _ => turn) (fun _ _ => RtoC 1) (fun _ => added) [R1]) as H.
  assert (HF : forall f, In f [R1] -> recordings_mixed f 3 turn_all pair_set turned_set /\ invertible 2 turn /\ (forall i : nat, RtoC 1 <> RtoC 0) /\
     inputs_mixed 3 turn_all [1; 2] turn /\ outputs_mixed 3 turn_all [0] [1; 2] (fun _ => RtoC 1) added /\
     (ia_prefilter (plain_args None) = None \/ combination_free (ia_prefilter (plain_args None)) /\ forall i j, added i j = RtoC 0)).
  { intros f _. split; [apply turned_mixed|]. split; [exact turn_invertible|]. split; [intros _ N; injection N; lra|].
    split; [exact turn_inputs|]. split; [exact turn_outputs|left; reflexivity]. }
  assert (W : library (ia_weights (plain_args None))) by (exists [None]; split; [reflexivity|repeat constructor]).
  specialize (H W eq_refl eq_refl eq_refl ltac:(discriminate) HF). rewrite E in H.
  destruct (whole_impedance one_period (plain_args None) turned_set [R1]) as [out'|e]; [|destruct H].
  destruct H as (_ & L & H). destruct out' as [|x' [|y' out']]; try discriminate. exists x'. split; [reflexivity|].
  destruct (H 0 R1 x x' eq_refl eq_refl eq_refl) as (S & _). rewrite Z in S.
  destruct (ir_z listU x') as [z'|m k]; [|destruct S]. f_equal. exact (turned_table _ S).
Qed.

(** the remote channel times -3 *)
Example C123_remote_example : exists x, whole_impedance one_period (plain_args (Some "R"%string)) flipped_set [R1] = Ok [x] /\ ir_z listU x = Values [[RtoC 1]].
Proof.
  destruct C115_example as (x & E & Z).
  pose proof (C123_remote one_period (plain_args (Some "R"%string)) plain_set flipped_set [0] [1] [2] "R"%string 3 (fun _ => flip_all) (fun _ => flip) [R1]) as H.
  assert (HF : forall f, In f [R1] -> recordings_mixed f 3 flip_all plain_set flipped_set /\ invertible 1 flip /\
     inputs_mixed 3 flip_all [2] flip /\ kept 3 flip_all [0] /\ kept 3 flip_all [1]).
  { intros f _. split; [apply flipped_mixed|]. split; [exact flip_invertible|]. split; [exact flip_inputs|]. split; apply flip_kept; repeat constructor. }
  assert (W : library (ia_weights (plain_args (Some "R"%string)))) by (exists [None]; split; [reflexivity|repeat constructor]).
  specialize (H W I I eq_refl eq_refl eq_refl eq_refl ltac:(discriminate) HF). rewrite E in H.
  destruct (whole_impedance one_period (plain_args (Some "R"%string)) flipped_set [R1]) as [out'|e]; [|destruct H].
  destruct H as (_ & L & H). destruct out' as [|x' [|y' out']]; try discriminate. exists x'. split; [reflexivity|].
  destruct (H 0 R1 x x' eq_refl eq_refl eq_refl) as (S & _). rewrite S. exact Z.
Qed.
