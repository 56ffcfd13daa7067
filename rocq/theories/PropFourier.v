(** C29, C37-C40: Fourier coefficients on sliding windows. *)
From Coq Require Import Reals Lra QArith Qcanon.
From Coquelicot Require Import Complex.
From Verif Require Import Base BaseLemmas Arith OrdLaws QcLemmas TagsModel SyncModel SetModel SpecSet SetProofs Samples
  FourierModel SpecFourier FourierProofs FourierSet FourierExact FourierReal.
Open Scope nat_scope.

(** C29: per channel, the concatenation over the runs, in the order of the runs,
    of the coefficients of the windows lying inside the run. *)
Theorem C29_concatenation :
  forall (A : Arith) (O : OrdLaws A) (V K C : Type) (kone : K) tone cmul cdot calib cdiv (X : @sigset A V K) f Nper ov (w : window_arg C) coeffs Nws Ls shs,
  reach kone X -> set_fourier tone cmul cdot calib cdiv X f Nper ov w = Ok (coeffs, (Nws, Ls, shs)) ->
  length coeffs = nb_channels X /\ length Nws = nb_runs X /\ length Ls = nb_runs X /\ length shs = nb_runs X /\
  forall c l, nth_error coeffs c = Some l ->
    length l = list_sum Nws /\
    exists parts, l = concat parts /\ map (@length C) parts = Nws /\
    forall i part, nth_error parts i = Some part -> exists s L sh,
      nth_error (ss_signals X) i = Some s /\ nth_error Ls i = Some L /\ nth_error shs i = Some sh /\
      run_coeffs tone cmul cdot calib cdiv f w s c L sh part.
Proof.
  intros A O V K C kone tone cmul cdot calib cdiv X f Nper ov w coeffs Nws Ls shs R. apply set_fourier_spec. exact (reach_wf kone O X R).
Qed.
Print Assumptions C29_concatenation.

(** C29: it succeeds exactly when there is a run and, for every run, every
    calibration has a value and the windows are legal; an empty set raises. *)
Theorem C29_success :
  forall (A : Arith) (V K C : Type) tone cmul cdot calib cdiv (X : @sigset A V K) f Nper ov (w : window_arg C),
  (exists r, set_fourier tone cmul cdot calib cdiv X f Nper ov w = Ok r) <->
  ss_signals X <> [] /\ forall s, In s (ss_signals X) ->
    (forall k, In k (s_cal s) -> exists v, calib k f = Ok (Some v)) /\
    exists r, time_to_freq tone cmul cdot (s_data s) (s_rate s) f Nper ov w = Ok r.
Proof.
  intros A V K C tone cmul cdot calib cdiv X f Nper ov w. rewrite set_fourier_ok.
  split; intros (Hne & H); (split; [exact Hne|]); intros s Hs; [apply (sync_fourier_ok tone cmul cdot calib cdiv s f Nper ov w)|apply sync_fourier_ok]; auto.
Qed.
Print Assumptions C29_success.

Theorem C29_empty_raises :
  forall (A : Arith) (V K C : Type) tone cmul cdot calib cdiv (X : @sigset A V K) f Nper ov (w : window_arg C),
  ss_signals X = [] -> set_fourier tone cmul cdot calib cdiv X f Nper ov w = Err ValueError.
Proof. intros A V K C tone cmul cdot calib cdiv. exact (set_fourier_empty tone cmul cdot calib cdiv). Qed.
Print Assumptions C29_empty_raises.

(** C37: what discrete_window returns. *)
Theorem C37_parameters :
  forall size nf Nper ov Nw Lw shift,
  @discrete_window QA size nf Nper ov = Ok (Nw, Lw, shift) <-> window_params size nf Nper ov Nw Lw shift.
Proof. exact discrete_window_spec. Qed.
Print Assumptions C37_parameters.

(** C37: when it raises. *)
Theorem C37_out_of_range :
  forall size nf Nper ov,
  @discrete_window QA size nf Nper ov = Err AssertionError <-> ~ ((Q2Qc 0 <= ov /\ ov <= Q2Qc 1) /\ (Q2Qc 0 < nf /\ nf <= Q2Qc (1 # 2)))%Qc.
Proof. exact discrete_window_assert. Qed.
Print Assumptions C37_out_of_range.

Theorem C37_outcome :
  forall size nf Nper ov, (Q2Qc 0 <= ov /\ ov <= Q2Qc 1)%Qc -> (Q2Qc 0 < nf /\ nf <= Q2Qc (1 # 2))%Qc ->
  exists Lw shift : Z, (ZtoQc (Lw - 1) * nf < Nper /\ Nper <= ZtoQc Lw * nf)%Qc /\
    (ZtoQc shift <= ZtoQc Lw * (Q2Qc 1 - ov) /\ ZtoQc Lw * (Q2Qc 1 - ov) < ZtoQc (shift + 1))%Qc /\
    ((exists Nw, @discrete_window QA size nf Nper ov = Ok (Nw, Lw, shift)) <-> (0 < shift /\ Lw + shift <= Z.of_nat size)%Z) /\
    (~ (0 < shift /\ Lw + shift <= Z.of_nat size)%Z -> exists e, @discrete_window QA size nf Nper ov = Err e).
Proof. exact discrete_window_outcome. Qed.
Print Assumptions C37_outcome.

Example C37_example :
  @discrete_window QA 100 (Q2Qc (3 # 100)) (Q2Qc 2) (Q2Qc (71 # 100)) = Ok (1, 67, 19)%Z /\
  @discrete_window QA 86 (Q2Qc (3 # 100)) (Q2Qc 2) (Q2Qc (71 # 100)) = Ok (1, 67, 19)%Z /\
  @discrete_window QA 85 (Q2Qc (3 # 100)) (Q2Qc 2) (Q2Qc (71 # 100)) = Err ValueError /\
  @discrete_window QA 200 (Q2Qc (3 # 100)) (Q2Qc 2) (Q2Qc 1) = Err OverflowError /\
  @discrete_window QA 200 (Q2Qc (3 # 5)) (Q2Qc 2) (Q2Qc (1 # 2)) = Err AssertionError.
Proof. vm_compute. repeat split; reflexivity. Qed.

(** C38: one coefficient for each window that fits and no other; the reported
    count is one more than discrete_window's. For every arithmetic on times, so
    also for floats. *)
Theorem C38_windows :
  forall (A : Arith) (V C : Type) tone cmul cdot (data : list (list V)) fs f Nper ov (w : window_arg C) r Nw Lw shift,
  time_to_freq (A := A) tone cmul cdot data fs f Nper ov w = Ok (r, (Nw, Lw, shift)) ->
  0 < shift /\ length r = length data /\ exists size nw o x, (forall y, In y data -> length y = size) /\
    discrete_window size (ndiv A f fs) Nper ov = Ok (nw, Z.of_nat Lw, Z.of_nat shift) /\ Z.of_nat Nw = (nw + 1)%Z /\
    (forall k, k < Nw <-> k * shift + Lw <= size) /\ asked w Lw o /\ taper tone cmul (ndiv A f fs) Lw o x /\
    forall c y l, nth_error data c = Some y -> nth_error r c = Some l ->
      length l = Nw /\ forall k z, nth_error l k = Some z <-> exists win, stretch y (k * shift) Lw win /\ z = cdot x win.
Proof.
  intros A V C tone cmul cdot data fs f Nper ov w r Nw Lw shift H. apply time_to_freq_spec in H.
  pose proof (spectrum_count _ _ _ _ _ _ _ _ _ _ _ _ _ H) as (Hs & size & Hl & HN & Hk).
  destruct H as (size' & nw & Hne & Hl' & _ & Hdw & EN & o & x & Ho & Hx & Hall). split; [exact Hs|].
  split; [symmetry; exact (Forall2_len _ _ _ Hall)|].
  assert (E : size' = size) by (destruct data as [|y d]; [congruence|]; rewrite <- (Hl y (or_introl eq_refl)); symmetry; apply Hl'; left; reflexivity). subst size'.
  exists size, nw, o, x. repeat (split; [assumption|]). intros c y l Hy Hc. split; [apply HN, (nth_error_In _ _ Hc)|].
  destruct (Forall2_nth_error _ _ _ _ _ Hall Hy) as (l' & Hl2 & Hco). rewrite Hc in Hl2. injection Hl2 as <-. exact Hco.
Qed.
Print Assumptions C38_windows.

(** C38: a coefficient only depends on the samples of its window. *)
Theorem C38_local :
  forall (A : Arith) (V C : Type) tone cmul cdot (data data' : list (list V)) fs f Nper ov (w : window_arg C) r r' Nw Lw shift c y y' l l' k,
  time_to_freq (A := A) tone cmul cdot data fs f Nper ov w = Ok (r, (Nw, Lw, shift)) ->
  time_to_freq (A := A) tone cmul cdot data' fs f Nper ov w = Ok (r', (Nw, Lw, shift)) ->
  nth_error data c = Some y -> nth_error data' c = Some y' -> nth_error r c = Some l -> nth_error r' c = Some l' ->
  (forall n, k * shift <= n < k * shift + Lw -> nth_error y n = nth_error y' n) -> nth_error l k = nth_error l' k.
Proof.
  intros A V C tone cmul cdot data data' fs f Nper ov w r r' Nw Lw shift c y y' l l' k H H' Hy Hy' Hl Hl' Hag.
  apply C38_windows in H as (Hs & _ & size & nw & o & x & Hsz & _ & _ & Hcnt & Ho & Hx & Hc).
  apply C38_windows in H' as (_ & _ & size' & nw' & o' & x' & Hsz' & _ & _ & Hcnt' & Ho' & Hx' & Hc').
  assert (Eo : o = o').
  { destruct w as [|a|g]; simpl in Ho, Ho'; [congruence|destruct Ho, Ho'; congruence|].
    destruct Ho as (a & Ha & -> & _). destruct Ho' as (a' & Ha' & -> & _). congruence. }
  subst o'. assert (x = x') by (eapply taper_unique; eassumption). subst x'.
  destruct (Hc c y l Hy Hl) as (El & Hk). destruct (Hc' c y' l' Hy' Hl') as (El' & Hk').
  assert (Hstr : forall win, stretch y (k * shift) Lw win -> k < Nw -> stretch y' (k * shift) Lw win).
  { intros win (_ & E & Hn) HkN. split; [rewrite (Hsz' y' (nth_error_In _ _ Hy')); apply Hcnt', HkN|]. split; [exact E|].
    intros n Hlt. rewrite Hn by exact Hlt. apply Hag. lia. }
  destruct (Nat.lt_ge_cases k Nw) as [HkN|HkN].
  - destruct (nth_error l k) as [z|] eqn:Ez; [|apply nth_error_None in Ez; lia]. symmetry. apply Hk'.
    apply Hk in Ez as (win & Hw & ->). exists win. split; [apply Hstr; assumption|reflexivity].
  - rewrite (proj2 (nth_error_None l k)), (proj2 (nth_error_None l' k)) by lia. reflexivity.
Qed.
Print Assumptions C38_local.

(** C38: a signal in which exactly one window fits is rejected. *)
Theorem C38_one_window_rejected :
  forall (V C : Type) tone cmul cdot (data : list (list V)) fs f Nper ov (w : window_arg C) size Lw shift,
  data <> [] -> (forall y, In y data -> length y = size) -> fs <> Q2Qc 0 ->
  (Q2Qc 0 <= ov /\ ov <= Q2Qc 1)%Qc -> (Q2Qc 0 < f / fs /\ f / fs <= Q2Qc (1 # 2))%Qc ->
  (ZtoQc (Lw - 1) * (f / fs) < Nper /\ Nper <= ZtoQc Lw * (f / fs))%Qc ->
  (ZtoQc shift <= ZtoQc Lw * (Q2Qc 1 - ov) /\ ZtoQc Lw * (Q2Qc 1 - ov) < ZtoQc (shift + 1))%Qc ->
  (Lw <= Z.of_nat size < Lw + shift)%Z ->
  time_to_freq (A := QA) tone cmul cdot data fs f Nper ov w = Err ValueError.
Proof.
  intros V C tone cmul cdot data fs f Nper ov w size Lw shift Hne Hl Hfs Ho Hf HL Hs Hz. unfold time_to_freq.
  assert (E1 : dedup Nat.eqb (map (@length V) data) = [size]).
  { apply (dedup_all_eq Nat.eqb nat_eqb_iff). split; [destruct data; [congruence|discriminate]|]. intros n Hn. apply in_map_iff in Hn as (y & <- & Hy). apply Hl, Hy. }
  rewrite E1. cbn [bind]. cbn [QA neqb nzero]. destruct (Qceqb fs (Q2Qc 0)) eqn:E.
  - exfalso. apply Hfs. apply Qc_is_canon, Qeq_bool_iff. exact E.
  - cbn [negb check bind]. cbv zeta. change (ndiv QA f fs) with (f / fs)%Qc. rewrite (one_window_rejected size (f / fs)%Qc Nper ov Lw shift Ho Hf HL Hs Hz). reflexivity.
Qed.
Print Assumptions C38_one_window_rejected.

(** integer kernels, to run the model *)
Definition ztone (_ : num QA) (L n : nat) : Z := Z.of_nat n.
Definition zdot (x w : list Z) : Z := fold_right Z.add 0%Z (map (fun p => (fst p * snd p)%Z) (combine x w)).
Definition zdata : list (list Z) := [map Z.of_nat (seq 0 25); repeat 1%Z 25].
Example C38_example :
  time_to_freq (A := QA) ztone Z.mul zdot zdata (Q2Qc 10) (Q2Qc 2) (Q2Qc 2) (Q2Qc (1 # 2)) WNone =
    Ok ([[285; 510; 735; 960]; [45; 45; 45; 45]]%Z, (4, 10, 5)) /\
  time_to_freq (A := QA) ztone Z.mul zdot zdata (Q2Qc 10) (Q2Qc 2) (Q2Qc 2) (Q2Qc (1 # 2)) (WFun (fun n => Ok (repeat 2%Z n))) =
    Ok ([[570; 1020; 1470; 1920]; [90; 90; 90; 90]]%Z, (4, 10, 5)) /\
  time_to_freq (A := QA) ztone Z.mul zdot [repeat 1%Z 14] (Q2Qc 10) (Q2Qc 2) (Q2Qc 2) (Q2Qc (1 # 2)) WNone = Err ValueError.
Proof. vm_compute. repeat split; reflexivity. Qed.

(** the set [setA] of Samples.v has three runs of two channels, with rates 1, 1 and 1/2 *)
Example C29_example :
  reach tt setA /\
  match set_fourier (A := QA) ztone Z.mul zdot (fun (_ : unit) _ => Ok (Some 2%Z)) Z.div setA (Q2Qc (1 # 4)) (Q2Qc 1) (Q2Qc (1 # 2)) WNone with
  | Ok (c, (n, l, s)) => Some (map (@length Z) c, n, l, s) | Err _ => None end = Some ([15; 15], [4; 4; 7], [4; 4; 2], [2; 2; 1]).
Proof. split; [exact setA_reach|]. vm_compute. reflexivity. Qed.

(** C38: when time_to_freq succeeds. *)
Theorem C38_success :
  forall (V C : Type) tone cmul cdot (data : list (list V)) fs f Nper ov (w : window_arg C) Lw shift,
  (exists r Nw, time_to_freq (A := QA) tone cmul cdot data fs f Nper ov w = Ok (r, (Nw, Lw, shift))) <->
  data <> [] /\ fs <> Q2Qc 0 /\ exists size nw o, (forall y, In y data -> length y = size) /\
    window_params size (f / fs)%Qc Nper ov nw (Z.of_nat Lw) (Z.of_nat shift) /\ asked w Lw o.
Proof. intros V C. exact time_to_freq_ok. Qed.
Print Assumptions C38_success.

(** C39: linearity, over the complex numbers. *)
Theorem C39_linear :
  forall (a b : C) us vs ws fs f Nper ov w ru Nw L sh, lincombs a b us vs ws ->
  time_to_freq tone cmul cdot us fs f Nper ov w = Ok (ru, (Nw, L, sh)) ->
  exists rv rw, time_to_freq tone cmul cdot vs fs f Nper ov w = Ok (rv, (Nw, L, sh)) /\
    time_to_freq tone cmul cdot ws fs f Nper ov w = Ok (rw, (Nw, L, sh)) /\ lincombs a b ru rv rw.
Proof. exact ttf_linear. Qed.
Print Assumptions C39_linear.

(** C40: a pure tone is recovered exactly. *)
Theorem C40_pure_tone :
  forall (amp phi : R) fs f Nper ov data r Nw L sh c y l (m : Z),
  time_to_freq tone cmul cdot data fs f Nper ov WNone = Ok (r, (Nw, L, sh)) ->
  (f / fs < Q2Qc (1 # 2))%Qc -> (ZtoQc (Z.of_nat L) * (f / fs))%Qc = ZtoQc m ->
  nth_error data c = Some y -> samples_tone amp phi (f / fs)%Qc y -> nth_error r c = Some l ->
  length l = Nw /\ forall k z, nth_error l k = Some z -> z = (RtoC amp * cis (phi + 2 * PI * Qc2R (f / fs)%Qc * INR (k * sh)))%C.
Proof. exact ttf_tone. Qed.
Print Assumptions C40_pure_tone.

(** forty samples of a tone at 2 Hz, sampled at 10 Hz *)
Definition tone_data : list C := map (fun n => RtoC (3 * cos (2 * PI * Qc2R (Q2Qc 2 / Q2Qc 10)%Qc * INR n + 1))) (seq 0 40).
Lemma tone_params : window_params 40 (Q2Qc 2 / Q2Qc 10)%Qc (Q2Qc 2) (Q2Qc (1 # 2)) 6 10 5.
Proof. apply C37_parameters. vm_compute. reflexivity. Qed.
Lemma tone_runs (y : list C) : length y = 40 ->
  exists r Nw, time_to_freq tone cmul cdot [y] (Q2Qc 10) (Q2Qc 2) (Q2Qc 2) (Q2Qc (1 # 2)) WNone = Ok (r, (Nw, 10, 5)).
Proof.
  intros Hy. apply C38_success. split; [discriminate|]. split; [discriminate|]. exists 40, 6%Z, None.
  split; [intros z [<-|[]]; exact Hy|]. split; [exact tone_params|reflexivity].
Qed.
Example C40_example :
  exists r Nw l, time_to_freq tone cmul cdot [tone_data] (Q2Qc 10) (Q2Qc 2) (Q2Qc 2) (Q2Qc (1 # 2)) WNone = Ok (r, (Nw, 10, 5)) /\
  nth_error r 0 = Some l /\ samples_tone 3 1 (Q2Qc 2 / Q2Qc 10)%Qc tone_data /\
  (Q2Qc 2 / Q2Qc 10 < Q2Qc (1 # 2))%Qc /\ (ZtoQc 10 * (Q2Qc 2 / Q2Qc 10))%Qc = ZtoQc 2.
Proof.
  destruct (tone_runs tone_data) as (r & Nw & H); [unfold tone_data; rewrite map_length, seq_length; reflexivity|].
  pose proof (C38_windows _ _ _ _ _ _ _ _ _ _ _ _ _ _ _ _ H) as (_ & El & _).
  destruct r as [|l r]; [discriminate|]. exists (l :: r), Nw, l. split; [exact H|]. split; [reflexivity|]. split.
  - intros n v Hn. unfold tone_data in Hn. rewrite nth_error_map, nth_error_seq in Hn. destruct (n <? 40); [|discriminate]. injection Hn as <-. reflexivity.
  - split; [reflexivity|]. apply Qc_is_canon. reflexivity.
Qed.
Example C39_example :
  lincombs (RtoC 2) Ci [tone_data] [tone_data] [map (fun z => RtoC 2 * z + Ci * z)%C tone_data] /\
  exists r Nw, time_to_freq tone cmul cdot [tone_data] (Q2Qc 10) (Q2Qc 2) (Q2Qc 2) (Q2Qc (1 # 2)) WNone = Ok (r, (Nw, 10, 5)).
Proof.
  split; [|apply tone_runs; unfold tone_data; rewrite map_length, seq_length; reflexivity].
  split; [reflexivity|]. split; [reflexivity|]. intros c u v Hu Hv. destruct c as [|[|c]]; try discriminate. injection Hu as <-. injection Hv as <-.
  eexists. split; [reflexivity|]. split; [rewrite map_length; reflexivity|]. split; [rewrite map_length; reflexivity|].
  intros n x y Hx Hy. rewrite nth_error_map, Hx. rewrite Hx in Hy. injection Hy as <-. reflexivity.
Qed.
