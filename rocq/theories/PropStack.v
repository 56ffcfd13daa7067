(** Stacking of the results of all frequencies (C109). *)
From Coq Require Import QArith Qcanon.
From Verif Require Import Base BaseLemmas Arith OrdLaws QcLemmas TagsModel SyncModel SetModel SpecSet SetProofs Samples FourierModel FourierSet
  MestModel MestSamples UtilsModel SpecUtils UtilsSamples UtilsRun StageProofs SpecMass StackProofs.
Open Scope nat_scope.

(** ** C109: one array for all frequencies.
    The frequencies are done one after the other and the first exception ends the
    call. The results make one array exactly when they have one shape: as many
    electric as magnetic channels, or coefficients for all frequencies, or for none. *)
Theorem C109_outcome : forall (k : Kern) (O : OrdLaws (kA k)) (U : UK k) (V K St : Type) (kone : K)
    (fourier : @sigset (kA k) V K -> num (kA k) -> res (list (list (kE k)) * windows)) (bw : kB k -> nat) (a : @iargs k St) X l_freq st es bs r st',
  keep_shapes U bw ->
  reach kone X -> ia_weights a <> [] ->
  t_get (ss_tags X) (ia_elec a) = Ok es -> t_get (ss_tags X) (ia_mag a) = Ok bs ->
  (forall rn, with_remote (ia_remote a) rn -> exists l, t_get (ss_tags X) rn = Ok l) ->
  impedance U fourier a X l_freq st = (r, st') <->
  exists q, in_turn (fun f s x s' => impedance_one U fourier a X f s = (x, s')) l_freq st q st' /\
    match q with
    | Err e => r = Err e
    | Ok rs => (one_shape (fourier X) l_freq (length es) (length bs) /\ r = Ok rs) \/
               (~ one_shape (fourier X) l_freq (length es) (length bs) /\ r = Err ValueError)
    end.
Proof. exact @outcome_reach. Qed.
Print Assumptions C109_outcome.

(** Then every slice of each array has the shape of the first. *)
Theorem C109_array : forall (k : Kern) (O : OrdLaws (kA k)) (U : UK k) (V K St : Type) (kone : K)
    (fourier : @sigset (kA k) V K -> num (kA k) -> res (list (list (kE k)) * windows)) (bw : kB k -> nat) (a : @iargs k St) X l_freq st es bs rs st',
  keep_shapes U bw ->
  reach kone X -> ia_weights a <> [] ->
  t_get (ss_tags X) (ia_elec a) = Ok es -> t_get (ss_tags X) (ia_mag a) = Ok bs ->
  (forall rn, with_remote (ia_remote a) rn -> exists l, t_get (ss_tags X) rn = Ok l) ->
  impedance U fourier a X l_freq st = (Ok rs, st') ->
  length rs = length l_freq /\
  exists Nr n m, (n = length es /\ m = length bs \/ n = length bs /\ m = length es /\ forall f, In f l_freq -> exists x, fourier X f = Err x) /\
    forall r, In r rs -> shaped (u_width k U) (ir_z U r) n m /\ eshaped (u_eshape k U) (ir_err U r) n m /\ shaped (u_width k U) (ir_T U r) (length bs) Nr.
Proof. exact @array_reach. Qed.
Print Assumptions C109_array.

(** With two electric channels and one magnetic channel, one frequency with
    coefficients and one without, [silent_fail] does not prevent a ValueError. *)
Theorem C109_silent_refuted :
  reach tt setU /\ ia_silent argsEE = true /\
  (exists x, fourU setU (qd 1 4) = Ok x) /\ (exists x, fourU setU (q 3) = Err x) /\
  shown (impedance u0 fourU argsEE setU [qd 1 4; q 3] []) = inr ValueError.
Proof.
  split; [exact setU_reach|]. split; [reflexivity|]. split; [|split; [|vm_compute; reflexivity]].
  - destruct (fourU setU (qd 1 4)) as [x|x] eqn:E; [eauto|]. exfalso. vm_compute in E. discriminate.
  - destruct (fourU setU (q 3)) as [x|x] eqn:E; [|eauto]. exfalso. vm_compute in E. discriminate.
Qed.
Print Assumptions C109_silent_refuted.

Example C109_example :
  reach tt setU /\ ia_weights argsEE <> [] /\ t_get (ss_tags setU) (ia_elec argsEE) = Ok [0; 2] /\ t_get (ss_tags setU) (ia_mag argsEE) = Ok [1] /\
  (forall rn, with_remote (ia_remote argsEE) rn -> exists l, t_get (ss_tags setU) rn = Ok l) /\
  keep_shapes u0 (fun _ => 1) /\
  (* each frequency alone, and a square estimate with both *)
  shown (impedance u0 fourU argsEE setU [qd 1 4; qd 1 4] []) = inl [(Values [11; 1]%Z, [[8%Q]; [8%Q]], Values [1%Z]); (Values [11; 1]%Z, [[8%Q]; [8%Q]], Values [1%Z])] /\
  shown (impedance u0 fourU argsEE setU [q 3; q 3] []) = inl [(NaNs 1 2, [], NaNs 1 1); (NaNs 1 2, [], NaNs 1 1)] /\
  shown (impedance u0 fourU (argsU wsU (Some "R"%string) false true None (drop 3)) setU [qd 1 4; q 3] []) =
    inl [(Values [11%Z], [[8%Q]], Values [1%Z]); (NaNs 1 1, [], NaNs 1 1)].
Proof.
  split; [exact setU_reach|]. split; [discriminate|]. split; [reflexivity|]. split; [reflexivity|].
  split; [intros rn [[= <-] _]; eexists; reflexivity|]. split; [exact u0_shapes|]. vm_compute. repeat split; reflexivity.
Qed.
