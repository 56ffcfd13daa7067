(** Property C118: recordings of one frequency. *)
From Coq Require Import Reals List String.
From Coquelicot Require Import Complex.
From Verif Require Import Base BaseLemmas Arith TagsModel SyncModel SetModel SpecSet FourierModel MestModel WeightModel RobustModel BiModel FullModel UtilsModel SpecUtils WholeModel SpecWhole SpecRemote
  SpecTones WholeSamples TonesSamples TonesProofs RemoteNoise.
Open Scope nat_scope.

(** ** C118: sinusoidal fields give the transfer function between them *)
Theorem C118_tones : forall (fo : fopts) (a : arguments) (kone : calibration) (X : recordings) (f : R) (field : nat -> nat -> C) coeffs Nws Ls shs (z : list (list C)) (es bs : list nat),
  reach kone X -> least_squares a -> ia_keep a = true -> t_get (ss_tags X) (ia_elec a) = Ok es -> t_get (ss_tags X) (ia_mag a) = Ok bs ->
  remote_name a = None -> fo_window fo = WNone (C := C) ->
  coefficients fo X f = Ok (coeffs, (Nws, Ls, shs)) -> whole_periods f X Ls ->
  sinusoidal f field X (es ++ bs) -> transferred field X es bs z -> polarised field X bs ->
  exists x, whole_impedance fo a X [f] = Ok [x] /\ ir_z listU x = Values z /\
    exists err, ir_err listU x = Values err /\ forall i j, i < length es -> j < length bs -> nth_error (nth i err []) j = Some (Fin 0%R).
Proof. exact whole_tones. Qed.
Print Assumptions C118_tones.

(** windows of any shape that lets nothing through at twice the frequency *)
Theorem C118_shaped : forall (fo : fopts) (a : arguments) (kone : calibration) (X : recordings) (f : R) (field : nat -> nat -> C) coeffs Nws Ls shs (z : list (list C)) (es bs : list nat),
  reach kone X -> least_squares a -> ia_keep a = true -> t_get (ss_tags X) (ia_elec a) = Ok es -> t_get (ss_tags X) (ia_mag a) = Ok bs ->
  remote_name a = None ->
  coefficients fo X f = Ok (coeffs, (Nws, Ls, shs)) -> no_leak f X (fo_window fo) Ls ->
  sinusoidal f field X (es ++ bs) -> transferred field X es bs z -> polarised field X bs ->
  exists x, whole_impedance fo a X [f] = Ok [x] /\ ir_z listU x = Values z /\
    exists err, ir_err listU x = Values err /\ forall i j, i < length es -> j < length bs -> nth_error (nth i err []) j = Some (Fin 0%R).
Proof. exact whole_shaped. Qed.
Print Assumptions C118_shaped.

(** windows of no special shape are such windows when they hold whole numbers of periods *)
Theorem C118_flat : forall (fo : fopts) (kone : calibration) (X : recordings) (f : R) coeffs Nws Ls shs,
  reach kone X -> coefficients fo X f = Ok (coeffs, (Nws, Ls, shs)) -> whole_periods f X Ls -> no_leak f X (WNone (C := C)) Ls.
Proof. exact flat_no_leak. Qed.
Print Assumptions C118_flat.

(** the same with a remote reference: the reported [T] is the transfer function from the
    remote channels to the magnetic ones *)
Theorem C118_remote : forall (fo : fopts) (a : arguments) (kone : calibration) (X : recordings) (f : R) (field : nat -> nat -> C) coeffs Nws Ls shs (z T : list (list C)) (es bs rs : list nat) (r : string),
  reach kone X -> least_squares a -> ia_keep a = true -> t_get (ss_tags X) (ia_elec a) = Ok es -> t_get (ss_tags X) (ia_mag a) = Ok bs ->
  remote_name a = Some r -> t_get (ss_tags X) r = Ok rs ->
  coefficients fo X f = Ok (coeffs, (Nws, Ls, shs)) -> no_leak f X (fo_window fo) Ls ->
  sinusoidal f field X (es ++ bs ++ rs) -> transferred field X es bs z -> transferred field X bs rs T -> polarised field X bs -> polarised field X rs ->
  exists x, whole_impedance fo a X [f] = Ok [x] /\ ir_z listU x = Values z /\ ir_T listU x = Values T /\
    exists err, ir_err listU x = Values err /\ forall i j, i < length es -> j < length bs -> nth_error (nth i err []) j = Some (Fin 0%R).
Proof. exact whole_tones_remote. Qed.
Print Assumptions C118_remote.

(** an electric field that is [3 + 4j] times the magnetic one, which the instrument
    multiplies by [2j] *)
Example C118_example : exists x, whole_impedance one_period (plain_args None) tone_set [R1] = Ok [x] /\ ir_z listU x = Values [[(3%R, 4%R)]] /\
  exists err, ir_err listU x = Values err /\ nth_error (nth 0 err []) 0 = Some (Fin 0%R).
Proof.
  destruct tone_coeffs as (coeffs & Hc).
  destruct (C118_tones one_period (plain_args None) unit_cal tone_set R1 tone_field coeffs [2] [4] [4] [[(3%R, 4%R)]] [0] [1]) as (x & E & Z & err & He & H0);
    try reflexivity; try assumption.
  - exact tone_reach.
  - repeat (split; [first [reflexivity|exact I]|]); reflexivity.
  - exact tone_periods.
  - exact tone_sinusoidal.
  - exact tone_transferred.
  - exact tone_polarised.
  - exists x. split; [exact E|]. split; [exact Z|]. exists err. split; [exact He|]. apply H0; repeat constructor.
Qed.
(** the same recordings, with the channel that is proportional to the electric one as remote reference *)
Example C118_example_remote : exists x, whole_impedance one_period (plain_args (Some "R"%string)) tone_set [R1] = Ok [x] /\ ir_z listU x = Values [[(3%R, 4%R)]] /\
  ir_T listU x = Values [[((3 / 25)%R, (-4 / 25)%R)]] /\ exists err, ir_err listU x = Values err /\ nth_error (nth 0 err []) 0 = Some (Fin 0%R).
Proof.
  destruct tone_coeffs as (coeffs & Hc).
  destruct (C118_remote one_period (plain_args (Some "R"%string)) unit_cal tone_set R1 tone_field coeffs [2] [4] [4] [[(3%R, 4%R)]] [[((3 / 25)%R, (-4 / 25)%R)]] [0] [1] [2] "R"%string)
    as (x & E & Z & T & err & He & H0); try reflexivity; try assumption.
  - exact tone_reach.
  - repeat (split; [first [reflexivity|exact I]|]); reflexivity.
  - exact (C118_flat one_period unit_cal tone_set R1 coeffs [2] [4] [4] tone_reach Hc tone_periods).
  - exact tone_sinusoidal_remote.
  - exact tone_transferred.
  - exact tone_transferred_remote.
  - exact tone_polarised.
  - exact tone_polarised_remote.
  - exists x. split; [exact E|]. split; [exact Z|]. split; [exact T|]. exists err. split; [exact He|]. apply H0; repeat constructor.
Qed.
(** one period of the Hann window *)
Example C118_example_hann : exists x, whole_impedance hann_period (plain_args None) tone_set [R1] = Ok [x] /\ ir_z listU x = Values [[(3%R, 4%R)]].
Proof.
  destruct tone_coeffs_hann as (coeffs & Hc).
  destruct (C118_shaped hann_period (plain_args None) unit_cal tone_set R1 tone_field coeffs [2] [4] [4] [[(3%R, 4%R)]] [0] [1]) as (x & E & Z & _); try reflexivity; try assumption.
  - exact tone_reach.
  - repeat (split; [first [reflexivity|exact I]|]); reflexivity.
  - exact hann_no_leak.
  - exact tone_sinusoidal.
  - exact tone_transferred.
  - exact tone_polarised.
  - exists x. split; [exact E|exact Z].
Qed.
