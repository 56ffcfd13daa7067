(** Property C117: errors, shapes and failures of complete estimates. *)
From Coq Require Import Reals List String Lia.
From Coquelicot Require Import Complex.
From Verif Require Import Base BaseLemmas Arith OrdLaws TagsModel SyncModel SetModel SpecSet FourierModel MestModel WeightModel RobustModel BiModel FullModel PrefilterModel
  UtilsModel SpecUtils StackProofs UtilsRun WholeModel SpecWhole SpecRemote SpecReport WholeReport ReportProofs RemoteNoise WholeSamples ReportSamples PropUtils PropStack PropWhole.
Open Scope nat_scope.

(** ** C117: the errors reported with an estimate *)
Theorem C117_errors : forall (fo : fopts) (a : arguments) (kone : calibration) (X : recordings) (l_freq : list R) (out : list result) m f x z es bs rs,
  reach kone X -> ia_weights a <> [] -> ia_keep a = true -> legal_prefilter (ia_prefilter a) -> legal_prefilter (ia_remote_prefilter a) ->
  t_get (ss_tags X) (ia_elec a) = Ok es -> t_get (ss_tags X) (ia_mag a) = Ok bs ->
  (match remote_name a with None => rs = [] | Some r => t_get (ss_tags X) r = Ok rs end) ->
  whole_impedance fo a X l_freq = Ok out -> nth_error l_freq m = Some f -> nth_error out m = Some x -> ir_z listU x = Values z ->
  exists coeffs w n err T g, coefficients fo X f = Ok (coeffs, w) /\ recorded coeffs n (es ++ bs ++ rs) /\
    ir_err listU x = Values err /\ ir_T listU x = (match T with Some T => Values T | None => NaNs (length bs) 0 end) /\ (T = None <-> remote_name a = None) /\
    inverse coeffs n bs rs T g /\ length (ir_ivt listU x) = length es /\
    forall i j ts, i < length es -> j < length bs -> nth_error (ir_ivt listU x) i = Some ts ->
      length bs <= n /\ length ts <= n /\
      exists v, nth_error (nth i err []) j = Some v /\
        (length bs < n -> length ts < n -> v = Fin (error_of coeffs n es bs rs z T g (length ts) i j)) /\
        (n = length bs \/ n = length ts -> ~ finite v).
Proof. exact whole_errors. Qed.
Print Assumptions C117_errors.

(** least squares on channels without noise: the transfer functions are found, with
    errors that are 0 *)
Theorem C117_no_noise : forall (fo : fopts) (a : arguments) (kone : calibration) (X : recordings) (l_freq : list R) (z : R -> list (list C)) (es bs : list nat),
  reach kone X -> least_squares a -> ia_keep a = true -> t_get (ss_tags X) (ia_elec a) = Ok es -> t_get (ss_tags X) (ia_mag a) = Ok bs ->
  remote_name a = None ->
  (forall f, In f l_freq -> exists coeffs w n, coefficients fo X f = Ok (coeffs, w) /\ length bs < n /\
     recorded coeffs n (es ++ bs) /\ separate coeffs n bs /\ table es bs (z f) /\
     forall i t, i < length es -> t < n -> noise coeffs es bs (z f) i t = RtoC 0) ->
  exists out, whole_impedance fo a X l_freq = Ok out /\ length out = length l_freq /\
    forall m f x, nth_error l_freq m = Some f -> nth_error out m = Some x -> ir_z listU x = Values (z f) /\
      exists err, ir_err listU x = Values err /\ forall i j, i < length es -> j < length bs -> nth_error (nth i err []) j = Some (Fin 0%R).
Proof. exact whole_no_noise. Qed.
Print Assumptions C117_no_noise.

(** the same with a remote reference, when the remote channels predict the magnetic ones *)
Theorem C117_no_noise_remote : forall (fo : fopts) (a : arguments) (kone : calibration) (X : recordings) (l_freq : list R) (z T : R -> list (list C)) (es bs rs : list nat) (r : string),
  reach kone X -> least_squares a -> ia_keep a = true -> t_get (ss_tags X) (ia_elec a) = Ok es -> t_get (ss_tags X) (ia_mag a) = Ok bs ->
  remote_name a = Some r -> t_get (ss_tags X) r = Ok rs ->
  (forall f, In f l_freq -> exists coeffs w n, coefficients fo X f = Ok (coeffs, w) /\ length bs < n /\
     recorded coeffs n (es ++ bs ++ rs) /\ separate coeffs n bs /\ separate coeffs n rs /\ table es bs (z f) /\ table bs rs (T f) /\
     (forall i t, i < length es -> t < n -> noise coeffs es bs (z f) i t = RtoC 0) /\
     (forall j t, j < length bs -> t < n -> noise coeffs bs rs (T f) j t = RtoC 0)) ->
  exists out, whole_impedance fo a X l_freq = Ok out /\ length out = length l_freq /\
    forall m f x, nth_error l_freq m = Some f -> nth_error out m = Some x -> ir_z listU x = Values (z f) /\ ir_T listU x = Values (T f) /\
      exists err, ir_err listU x = Values err /\ forall i j, i < length es -> j < length bs -> nth_error (nth i err []) j = Some (Fin 0%R).
Proof. exact whole_no_noise_remote. Qed.
Print Assumptions C117_no_noise_remote.

(** with [silent_fail] nothing else is raised than the ValueError of estimates of
    different shapes *)
Theorem C117_silent : forall (fo : fopts) (a : arguments) (kone : calibration) (X : recordings) (l_freq : list R) es bs,
  reach kone X -> ia_silent a = true -> ia_weights a <> [] -> total_prefilter (ia_prefilter a) -> total_prefilter (ia_remote_prefilter a) ->
  t_get (ss_tags X) (ia_elec a) = Ok es -> t_get (ss_tags X) (ia_mag a) = Ok bs ->
  (forall rn, with_remote (ia_remote a) rn -> exists rs, t_get (ss_tags X) rn = Ok rs) ->
  (one_shape (coefficients fo X) l_freq (length es) (length bs) -> exists out, whole_impedance fo a X l_freq = Ok out) /\
  (~ one_shape (coefficients fo X) l_freq (length es) (length bs) -> whole_impedance fo a X l_freq = Err ValueError).
Proof. exact whole_silent. Qed.
Print Assumptions C117_silent.

(** the shapes of the results *)
Theorem C117_shapes : forall (fo : fopts) (a : arguments) (kone : calibration) (X : recordings) (l_freq : list R) (out : list result) es bs,
  reach kone X -> ia_weights a <> [] -> t_get (ss_tags X) (ia_elec a) = Ok es -> t_get (ss_tags X) (ia_mag a) = Ok bs ->
  (forall rn, with_remote (ia_remote a) rn -> exists rs, t_get (ss_tags X) rn = Ok rs) ->
  whole_impedance fo a X l_freq = Ok out ->
  length out = length l_freq /\
  exists Nr n m, (n = length es /\ m = length bs \/ n = length bs /\ m = length es /\ forall f, In f l_freq -> exists x, coefficients fo X f = Err x) /\
    forall r, In r out ->
      shaped (@length C) (ir_z listU r) n m /\ eshaped (fun err => (length err, length (hd [] err))) (ir_err listU r) n m /\ shaped (@length C) (ir_T listU r) (length bs) Nr.
Proof. exact whole_shapes. Qed.
Print Assumptions C117_shapes.

(** the recordings of C115, without the remote reference: the transfer function is 1/2
    and its error is 1/2 too *)
Example C117_example : exists x, whole_impedance one_period (plain_args None) plain_set [R1] = Ok [x] /\ ir_z listU x = Values [[RtoC (1 / 2)%R]] /\
  exists err, ir_err listU x = Values err /\ nth_error (nth 0 err []) 0 = Some (Fin (1 / 2)%R).
Proof.
  destruct C115_local_bias_refuted as (x & E & Z). exists x. split; [exact E|]. split; [exact Z|].
  destruct (C117_errors one_period (plain_args None) unit_cal plain_set [R1] [x] 0 R1 x [[RtoC (1 / 2)%R]] [0] [1] [])
    as (coeffs & w & n & err & T & g & Hc & Rc & Herr & _ & HT & Hg & Hivt & Hent); try reflexivity; try assumption; try exact I; try discriminate.
  - exact plain_reach.
  - exists err. split; [exact Herr|]. pose proof (eq_trans (eq_sym (plain_coeffs : coefficients one_period plain_set R1 = _)) Hc) as P. injection P as <- <-.
    destruct (Rc 0 (or_introl eq_refl)) as (l & El & Ll). cbn in El. injection El as <-. cbn in Ll. subst n.
    rewrite (proj2 HT eq_refl) in *.
    destruct (C115_local one_period (plain_args None) plain_set [R1] (fun _ => [[RtoC (1 / 2)%R]]) [0] [1]) as (out & E' & _ & H');
      try reflexivity; try discriminate.
    + repeat (split; [first [reflexivity|exact I]|]); reflexivity.
    + intros f [<-|[]]. exists three, ([2], [4], [4]), 2. split; [exact plain_coeffs|]. split; [repeat constructor|].
      split; [apply three_recorded; intros c [<-|[<-|[]]]; repeat constructor|].
      split; [exact three_separate1|exact three_local].
    + rewrite E in E'. injection E' as <-. destruct (H' 0 R1 x eq_refl eq_refl) as (_ & Hi).
      destruct (Hent 0 0 []) as (_ & _ & v & Ev & Fv & _); [repeat constructor|repeat constructor|rewrite Hi; reflexivity|].
      rewrite Ev. f_equal. rewrite (Fv ltac:(repeat constructor) ltac:(repeat constructor)). f_equal. exact (error_value g Hg).
Qed.
Example C117_silent_example : exists out, whole_impedance one_period (plain_args None) plain_set [R1; R0] = Ok out.
Proof.
  apply (C117_silent one_period (plain_args None) unit_cal plain_set [R1; R0] [0] [1]); try reflexivity; try exact I; try discriminate.
  - exact plain_reach.
  - intros rn [D _]. discriminate.
  - left. reflexivity.
Qed.
(** two channels that are equal, the second in the place of the magnetic one *)
Example C117_quiet_example : exists x, whole_impedance one_period (quiet_args None) plain_set [R1] = Ok [x] /\ ir_z listU x = Values [[RtoC 1]].
Proof.
  destruct (C117_no_noise one_period (quiet_args None) unit_cal plain_set [R1] (fun _ => [[RtoC 1]]) [0] [2]) as (out & E & L & H); try reflexivity.
  - exact plain_reach.
  - repeat (split; [first [reflexivity|exact I]|]); reflexivity.
  - intros f [<-|[]]. exists three, ([2], [4], [4]), 2. split; [exact plain_coeffs|]. split; [repeat constructor|].
    split; [apply three_recorded; intros c [<-|[<-|[]]]; repeat constructor|]. split; [exact three_separate2|].
    split; [split; [reflexivity|repeat constructor]|exact quiet_noise].
  - destruct out as [|x [|y out]]; try discriminate. exists x. split; [exact E|]. exact (proj1 (H 0 R1 x eq_refl eq_refl)).
Qed.
(** the same with the first channel as remote reference *)
Example C117_quiet_remote_example : exists x, whole_impedance one_period (quiet_args (Some "E"%string)) plain_set [R1] = Ok [x] /\
  ir_z listU x = Values [[RtoC 1]] /\ ir_T listU x = Values [[RtoC 1]].
Proof.
  destruct (C117_no_noise_remote one_period (quiet_args (Some "E"%string)) unit_cal plain_set [R1] (fun _ => [[RtoC 1]]) (fun _ => [[RtoC 1]]) [0] [2] [0] "E"%string)
    as (out & E & L & H); try reflexivity.
  - exact plain_reach.
  - repeat (split; [first [reflexivity|exact I]|]); reflexivity.
  - intros f [<-|[]]. exists three, ([2], [4], [4]), 2. split; [exact plain_coeffs|]. split; [repeat constructor|].
    split; [apply three_recorded; intros c [<-|[<-|[<-|[]]]]; repeat constructor|]. split; [exact three_separate2|]. split; [exact three_separate0|].
    split; [split; [reflexivity|repeat constructor]|]. split; [split; [reflexivity|repeat constructor]|]. split; [exact quiet_noise|exact quiet_noise_back].
  - destruct out as [|x [|y out]]; try discriminate. exists x. split; [exact E|]. destruct (H 0 R1 x eq_refl eq_refl) as (H1 & H2 & _). split; assumption.
Qed.
