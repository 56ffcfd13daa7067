(** Property C119: estimates depend only on the channels of the tags they work with. *)
From Coq Require Import Reals List String.
From Coquelicot Require Import Complex.
From Verif Require Import Base BaseLemmas Arith OrdLaws TagsModel SyncModel SetModel SpecTags SpecSet SpecSelect FourierModel MestModel WeightModel RobustModel BiModel FullModel UtilsModel MassModel WholeModel
  SpecSame SameProofs SameSelect WholeReport WholeSamples ReportSamples SameSamples PropWhole.
Open Scope nat_scope.

(** ** C119: two data sets that read the same through the tags of an estimate *)
Theorem C119_same : forall (k : Kern) (U : UK k) (V K St : Type) tone cmul cdot (calib : K -> num (kA k) -> res (option (kE k))) cdiv Nper ov w
  (kone : K) (L : OrdLaws (kA k)) (a : @iargs k St) (X Y : @sigset (kA k) V K) l_freq st,
  reach kone X -> reach kone Y -> (forall t, used a t -> agree X Y t) ->
  (forall f, In f l_freq -> calibrated calib X f /\ calibrated calib Y f) ->
  impedance U (fun X f => set_fourier tone cmul cdot calib cdiv X f Nper ov w) a X l_freq st =
  impedance U (fun X f => set_fourier tone cmul cdot calib cdiv X f Nper ov w) a Y l_freq st.
Proof. exact @impedance_same. Qed.
Print Assumptions C119_same.

(** selecting the channels of these tags, and any others *)
Theorem C119_selected : forall (k : Kern) (U : UK k) (V K St : Type) tone cmul cdot (calib : K -> num (kA k) -> res (option (kE k))) cdiv Nper ov w
  (kone : K) (L : OrdLaws (kA k)) (a : @iargs k St) (X Y : @sigset (kA k) V K) c l_freq st,
  reach kone X -> plain (ss_tags X) -> select_channels kone X c = Ok Y ->
  (forall t m i, used a t -> reads (ss_tags X) t m -> In i m -> chosen X c i) -> (forall f, In f l_freq -> calibrated calib X f) ->
  impedance U (fun X f => set_fourier tone cmul cdot calib cdiv X f Nper ov w) a Y l_freq st =
  impedance U (fun X f => set_fourier tone cmul cdot calib cdiv X f Nper ov w) a X l_freq st.
Proof. exact @impedance_selected. Qed.
Print Assumptions C119_selected.

(** the values of a prefilter *)
Theorem C119_values : forall (k : Kern) (U : UK k) (V K T : Type) tone cmul cdot (calib : K -> num (kA k) -> res (option (kE k))) cdiv Nper ov w
  (pvalue : list (kE k) -> list (kB k) -> res T) (kone : K) (L : OrdLaws (kA k)) (X Y : @sigset (kA k) V K) l_freq remote elec mag r,
  reach kone X -> reach kone Y -> agree X Y elec -> agree X Y mag ->
  (forall f, In f l_freq -> calibrated calib X f /\ calibrated calib Y f) ->
  prefilter_values U (fun X f => set_fourier tone cmul cdot calib cdiv X f Nper ov w) pvalue X l_freq remote elec mag = Ok r <->
  prefilter_values U (fun X f => set_fourier tone cmul cdot calib cdiv X f Nper ov w) pvalue Y l_freq remote elec mag = Ok r.
Proof. exact @values_same. Qed.
Print Assumptions C119_values.

(** the example of C115 with its two channels in the other order and without the third *)
Example C119_example : exists x, whole_impedance one_period (plain_args None) turned_set [R1] = Ok [x] /\ ir_z listU x = Values [[RtoC (1 / 2)%R]].
Proof.
  destruct C115_local_bias_refuted as (x & E & Z). exists x. split; [|exact Z]. rewrite <- E. unfold whole_impedance, coefficients. f_equal. symmetry.
  apply (C119_same listK listU R calibration (heap listW) r_tone Cmult r_dot (fun k : calibration => k) Cdiv _ _ _ unit_cal RA_ord).
  - exact plain_reach.
  - exact turned_reach.
  - exact turned_agree.
  - intros f _. split; [apply plain_calibrated|apply turned_calibrated].
Qed.

(** a channel of no interest without calibration makes the estimate fail, silently *)
Theorem C119_uncalibrated_refuted : exists (fo : fopts) (a : arguments) (kone : calibration) (X Y : recordings) (f : R) (x y : result),
  reach kone X /\ reach kone Y /\ (forall t, used a t -> agree X Y t) /\
  whole_impedance fo a X [f] = Ok [x] /\ (exists z, ir_z listU x = Values z) /\
  whole_impedance fo a Y [f] = Ok [y] /\ ir_z listU y = NaNs 1 1.
Proof.
  destruct C115_local_bias_refuted as (x & E & Z).
  exists one_period, (plain_args None), unit_cal, plain_set, mute_set, R1, x, (mkIres (k := listK) listU (NaNs 1 1) [] (NaNs 1 1) (NaNs 1 0)).
  split; [exact plain_reach|]. split; [exact mute_reach|]. split; [exact mute_agree|]. split; [exact E|]. split; [eexists; exact Z|]. split; reflexivity.
Qed.
Print Assumptions C119_uncalibrated_refuted.
