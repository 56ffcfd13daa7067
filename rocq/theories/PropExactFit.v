(** Property C125: robust estimates of recordings without noise. *)
From Coq Require Import Reals List String.
From Coquelicot Require Import Complex.
From Verif Require Import Base BaseLemmas Arith TagsModel SyncModel SetModel SpecSet FourierModel MestModel WeightModel RobustModel BiModel FullModel UtilsModel SpecUtils WholeModel SpecWhole SpecRemote
  SpecTones WholeSamples TonesSamples TonesProofs SpecExactFit ExactFitProofs ExactFitTones ExactFitSamples.
Open Scope nat_scope.

(** ** C125: a channel without noise makes robust estimates fail *)
(** without a message: arrays of nan at each frequency where one output of the first
    estimation follows its inputs, whatever the other outputs and frequencies *)
Theorem C125_silent : forall (fo : fopts) (a : arguments) (X : recordings) (es bs rs outs ins : list nat) (ws : list (option (wfun listK (heap listW)))),
  first_estimation a X es bs rs outs ins ws -> robust ws -> (0 < o_maxit (ia_opts a))%Z -> bs <> [] -> ins <> [] ->
  forall (l : list R) out m f x i, ia_silent a = true -> exact_fit fo X f (es ++ bs ++ rs) outs ins i ->
  whole_impedance fo a X l = Ok out -> nth_error l m = Some f -> nth_error out m = Some x -> x = nan_result (length es) (length bs) (length rs).
Proof. exact exact_silent. Qed.
Print Assumptions C125_silent.

(** when this is so at all frequencies, there is a result, and it is nan throughout *)
Theorem C125_all : forall (fo : fopts) (a : arguments) (X : recordings) (es bs rs outs ins : list nat) (ws : list (option (wfun listK (heap listW)))),
  first_estimation a X es bs rs outs ins ws -> robust ws -> (0 < o_maxit (ia_opts a))%Z -> bs <> [] -> ins <> [] ->
  forall l : list R, ia_silent a = true -> (forall f, In f l -> exists i, exact_fit fo X f (es ++ bs ++ rs) outs ins i) ->
  whole_impedance fo a X l = Ok (repeat (nan_result (length es) (length bs) (length rs)) (length l)).
Proof. exact exact_all. Qed.
Print Assumptions C125_all.

(** without [silent_fail], an exception *)
Theorem C125_raises : forall (fo : fopts) (a : arguments) (X : recordings) (es bs rs outs ins : list nat) (ws : list (option (wfun listK (heap listW)))),
  first_estimation a X es bs rs outs ins ws -> robust ws -> (0 < o_maxit (ia_opts a))%Z -> bs <> [] -> ins <> [] ->
  forall (l : list R) out f i, ia_silent a = false -> exact_fit fo X f (es ++ bs ++ rs) outs ins i -> In f l -> whole_impedance fo a X l <> Ok out.
Proof. exact exact_raises. Qed.
Print Assumptions C125_raises.

(** which is [ValueError] when it is the first output at the first frequency *)
Theorem C125_error : forall (fo : fopts) (a : arguments) (X : recordings) (es bs rs outs ins : list nat) (ws : list (option (wfun listK (heap listW)))),
  first_estimation a X es bs rs outs ins ws -> robust ws -> (0 < o_maxit (ia_opts a))%Z -> bs <> [] -> ins <> [] ->
  forall (l : list R) f, ia_silent a = false -> ia_real_pb a = false -> exact_fit fo X f (es ++ bs ++ rs) outs ins 0 -> whole_impedance fo a X (f :: l) = Err ValueError.
Proof. exact exact_error. Qed.
Print Assumptions C125_error.

(** the sinusoidal fields of C118, whose least-squares estimates are exact *)
Theorem C125_tones : forall (fo : fopts) (a : arguments) (kone : calibration) (X : recordings) (f : R) (field : nat -> nat -> C) coeffs Nws Ls shs (z : list (list C)) (es bs rs outs ins : list nat) (ws : list (option (wfun listK (heap listW)))),
  reach kone X -> first_estimation a X es bs rs outs ins ws -> robust ws -> (0 < o_maxit (ia_opts a))%Z -> ia_real_pb a = false ->
  coefficients fo X f = Ok (coeffs, (Nws, Ls, shs)) -> no_leak f X (fo_window fo) Ls ->
  sinusoidal f field X (es ++ bs ++ rs) -> transferred field X outs ins z -> polarised field X ins ->
  whole_impedance fo a X [f] = if ia_silent a then Ok [nan_result (length es) (length bs) (length rs)] else Err ValueError.
Proof. exact tones_robust. Qed.
Print Assumptions C125_tones.

(** the sequences of weights that the library offers are such weights *)
Theorem C125_mest : forall (alpha : R) (id : nat), robust (weightings listW (mest_weights (k := listK) alpha id)).
Proof. exact mest_robust. Qed.
Print Assumptions C125_mest.
Theorem C125_bi : forall (alpha lower upper : R) (n_step : Z) (id : nat), robust (weightings listW (bi_weights (k := listK) alpha lower upper n_step id)).
Proof. exact bi_robust. Qed.
Print Assumptions C125_bi.

(** the recordings of C118_example, three times the same frequency, with [mest_weights] *)
Example C125_example : whole_impedance one_period (robust_args mest None true) tone_set [R1; R1; R1] = Ok [nan_result 1 1 0; nan_result 1 1 0; nan_result 1 1 0].
Proof.
  apply (C125_all one_period (robust_args mest None true) tone_set [0] [1] [] [0] [1] mest (local_first mest true) (C125_mest _ _)); try reflexivity; try discriminate.
  intros f Hf. assert (E : f = R1) by (simpl in Hf; intuition congruence). subst f. exists 0. exact tone_fit.
Qed.
(** another frequency before *)
Example C125_example_silent : forall out x, whole_impedance one_period (robust_args bi None true) tone_set [(1 / 2)%R; R1] = Ok out -> nth_error out 1 = Some x -> x = nan_result 1 1 0.
Proof.
  intros out x Ho Hx.
  apply (C125_silent one_period (robust_args bi None true) tone_set [0] [1] [] [0] [1] bi (local_first bi true) (C125_bi _ _ _ _ _) eq_refl ltac:(discriminate) ltac:(discriminate)
    [(1 / 2)%R; R1] out 1 R1 x 0 eq_refl tone_fit Ho eq_refl Hx).
Qed.
Example C125_example_raises : forall out, whole_impedance one_period (robust_args bi None false) tone_set [(1 / 2)%R; R1] <> Ok out.
Proof.
  intros out.
  apply (C125_raises one_period (robust_args bi None false) tone_set [0] [1] [] [0] [1] bi (local_first bi false) (C125_bi _ _ _ _ _) eq_refl ltac:(discriminate) ltac:(discriminate)
    [(1 / 2)%R; R1] out R1 0 eq_refl tone_fit). right. left. reflexivity.
Qed.
Example C125_example_error : whole_impedance one_period (robust_args bi None false) tone_set [R1; (1 / 2)%R] = Err ValueError.
Proof.
  apply (C125_error one_period (robust_args bi None false) tone_set [0] [1] [] [0] [1] bi (local_first bi false) (C125_bi _ _ _ _ _) eq_refl ltac:(discriminate) ltac:(discriminate)
    [(1 / 2)%R] R1 eq_refl eq_refl tone_fit).
Qed.
(** with a remote reference it is the first stage that fails, with or without a message *)
Example C125_example_remote : forall silent, whole_impedance one_period (robust_args bi (Some "R"%string) silent) tone_set [R1] =
  if silent then Ok [nan_result 1 1 1] else Err ValueError.
Proof.
  intros silent. destruct tone_coeffs as (coeffs & Hc).
  apply (C125_tones one_period (robust_args bi (Some "R"%string) silent) unit_cal tone_set R1 tone_field coeffs [2] [4] [4] [[((3 / 25)%R, (-4 / 25)%R)]] [0] [1] [2] [1] [2] bi);
    try reflexivity; try assumption.
  - exact tone_reach.
  - exact (remote_first bi silent).
  - exact (C125_bi _ _ _ _ _).
  - exact (flat_no_leak one_period unit_cal tone_set R1 coeffs [2] [4] [4] tone_reach Hc tone_periods).
  - exact tone_sinusoidal_remote.
  - exact tone_transferred_remote.
  - exact tone_polarised_remote.
Qed.
