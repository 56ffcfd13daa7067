(** What the estimates print (C113). *)
From Coq Require Import QArith Qcanon Reals.
From Verif Require Import Base BaseLemmas Arith OrdLaws TagsModel SyncModel SetModel SpecSet Samples InvModel InvSamples FourierModel MestModel MestSamples UtilsModel SpecUtils UtilsSamples
  MassModel MassProofs ReprModel NumTextModel SpecNumText NumTextUnique PrintModel SpecPrint PrintProofs PercentProofs.
Open Scope nat_scope.

(** ** C113: the output of [impedance] *)

(** printing does not change results *)
Theorem C113_same_results : forall (k : Kern) (U : UK k) (V K St R : Type) (kone : K) (fourier : @sigset (kA k) V K -> num (kA k) -> res (list (list (kE k)) * windows)) rorder
    (pvalue : list (kE k) -> list (kB k) -> res R) (a : @iargs k St) X inv names l_freq intervals combine st,
  fst (p_impedance U fourier a X l_freq st) = impedance U fourier a X l_freq st /\
  fst (p_mass U kone fourier rorder inv names l_freq intervals a combine st) = impedance_mass_proc U kone fourier rorder inv names l_freq intervals a combine st /\
  fst (p_values_mass U kone fourier pvalue X names l_freq intervals) = prefilter_values_mass_proc U kone fourier pvalue X names l_freq intervals.
Proof. intros. split; [apply p_impedance_fst|]. split; [apply p_mass_fst|apply p_values_mass_fst]. Qed.
Print Assumptions C113_same_results.

(** Every frequency is announced, in order; an exception is shown where the result is
    nan although there are Fourier coefficients. *)
Theorem C113_success : forall (k : Kern) (U : UK k) (V K St : Type) (fourier : @sigset (kA k) V K -> num (kA k) -> res (list (list (kE k)) * windows))
    (a : @iargs k St) X l_freq st rs st' o,
  p_impedance U fourier a X l_freq st = ((Ok rs, st'), o) ->
  exists os, o = concat os /\ length rs = length l_freq /\ length os = length l_freq /\
    forall n f, nth_error l_freq n = Some f -> exists r b, nth_error rs n = Some r /\ nth_error os n = Some b /\ told U fourier a X f r b.
Proof. intros k U V K St fourier a X l_freq st rs st' o. apply p_impedance_ok. Qed.
Print Assumptions C113_success.

(** An exception of [impedance]: nothing is printed when a tag is missing; otherwise it
    ends the frequency that was announced last, and if it comes from an estimation it is
    the last line; or the results of all frequencies cannot be put together. *)
Theorem C113_failure : forall (k : Kern) (U : UK k) (V K St : Type) (fourier : @sigset (kA k) V K -> num (kA k) -> res (list (list (kE k)) * windows))
    (a : @iargs k St) X l_freq st e st' o,
  p_impedance U fourier a X l_freq st = ((Err e, st'), o) ->
  (~ tags_known a X /\ e = KeyError /\ o = []) \/
  (tags_known a X /\ e = ValueError /\ started o = l_freq /\ progress o = []) \/
  (tags_known a X /\ exists l1 f l2 os b, l_freq = l1 ++ f :: l2 /\ o = concat os ++ b /\ length os = length l1 /\
    (forall n g, nth_error l1 n = Some g -> exists c r, nth_error os n = Some c /\ told U fourier a X g r c) /\
    (b = [Starting f] \/ (ia_silent a = false /\ b = [Starting f; Failed e]))).
Proof. intros k U V K St fourier a X l_freq st e st' o. apply p_impedance_err. Qed.
Print Assumptions C113_failure.

(** The exceptions shown are those of the two estimations, whatever [silent_fail] says;
    those of the Fourier coefficients are never shown. *)
Theorem C113_reported : forall (k : Kern) (U : UK k) (V K St : Type) (fourier : @sigset (kA k) V K -> num (kA k) -> res (list (list (kE k)) * windows))
    (a : @iargs k St) X f st x,
  In (Failed x) (snd (p_one U fourier a X f st)) <->
  exists coeffs w, fourier X f = Ok (coeffs, w) /\ (first_raises U a X coeffs st x \/ last_raises U a X coeffs st x).
Proof. intros k U V K St fourier a X f st x. apply reported_one. Qed.
Print Assumptions C113_reported.

(** ** C113: the output of the runs over combinations *)
Theorem C113_mass : forall (k : Kern) (U : UK k) (V K St : Type) (kone : K) (fourier : @sigset (kA k) V K -> num (kA k) -> res (list (list (kE k)) * windows)) rorder
    (a : @iargs k St) inv names l_freq intervals (combine : bool) st r st' o,
  p_mass U kone fourier rorder inv names l_freq intervals a combine st = ((r, st'), o) ->
  let n := (if combine then 2 ^ length names else 1) * length intervals in
  match r with Ok _ => stepwise l_freq n 0 o n | Err _ => interrupted l_freq n o end.
Proof.
  intros k U V K St kone fourier rorder a inv names l_freq intervals cb st r st' o H n.
  assert (E : n = length (combinations (length names) cb) * length intervals).
  { unfold n, combinations. destruct cb; [|reflexivity]. change (map (fun e => [None; Some e]) (seq 0 (length names))) with (pairs_from 0 (length names)). rewrite product_length. reflexivity. }
  rewrite E. destruct r; [eapply p_mass_ok, H|eapply p_mass_err, H].
Qed.
Print Assumptions C113_mass.

Theorem C113_values : forall (k : Kern) (U : UK k) (V K R : Type) (kone : K) (fourier : @sigset (kA k) V K -> num (kA k) -> res (list (list (kE k)) * windows))
    (pvalue : list (kE k) -> list (kB k) -> res R) X names l_freq intervals r X' o,
  p_values_mass U kone fourier pvalue X names l_freq intervals = ((r, X'), o) ->
  let n := 2 ^ length names * length intervals in
  exists j, j <= n /\ o = map (fun d => Percent d n) (seq 0 j) /\ forall y, r = Ok y -> j = n.
Proof.
  intros k U V K R kone fourier pvalue X names l_freq intervals r X' o H n. apply p_values_mass_lines in H. cbv zeta in H.
  change (combinations (length names) true) with (product (pairs_from 0 (length names))) in H. rewrite product_length in H. exact H.
Qed.
Print Assumptions C113_values.

(** ** C113: the texts *)

(** In binary64 the percentages are those of the steps done, rounded to one digit after
    the point; they begin with 0.0%, never decrease, and 100.0% is not shown for fewer
    than 2000 steps. *)
Theorem C113_percent : forall n, (0 < Z.of_nat n < 2 ^ 46)%Z -> exists t : nat -> nat,
  (forall d, d < n -> percent d n = (nat_text (t d / 10) ++ "." ++ nat_text (t d mod 10) ++ "%")%string /\
                      (Rabs (INR (t d) - 1000 * INR d / INR n) <= / 2 + / 2 ^ 40)%R) /\
  t 0 = 0 /\ (forall d d', d <= d' -> d' < n -> t d <= t d') /\ (n < 2000 -> forall d, d < n -> t d < 1000).
Proof.
  intros n Hn. exists (fun d => shown_tenths d n). split.
  - intros d Hd. split; [apply percent_text|]. apply percent_near; [lia|exact Hn].
  - split; [apply percent_zero, Hn|]. split; [intros d d' H1 H2; apply percent_le; [lia|exact Hn]|]. intros H d Hd. apply percent_under. lia.
Qed.
Print Assumptions C113_percent.

(** The frequency is shown with six digits. *)
Theorem C113_starting : forall (F : Type) (val : F -> Q) str f t,
  line_text val str (Starting f) = t <-> exists v u, rounded 6 (val f) v /\ written 6 v u /\ t = ("starting frequency " ++ u)%string.
Proof.
  intros F val str f t. cbn [line_text]. split.
  - intros <-. destruct (proj1 (gtext_iff 6 (val f) (gtext 6 (val f)) ltac:(lia)) eq_refl) as (v & H1 & H2). eauto.
  - intros (v & u & H1 & H2 & ->). f_equal. apply gtext_iff; [lia|]. eauto.
Qed.
Print Assumptions C113_starting.

(** two remotes, the second one lacks samples: its transfer cannot be estimated *)
Definition printed (silent : bool) := p_mass u0 tt fourU rates_of invU ["R1"; "R2"]%string [qd 1 4; q 3] [(q 0, q 20); (q 4, q 20)] (argsU [None] None false silent None (drop 1)) true [].
Example C113_example :
  map (line_text this (fun _ => "no solution"%string)) (snd (printed true)) =
    ["0.0%"; "starting frequency 0.25"; "starting frequency 3"; "12.5%"; "starting frequency 0.25"; "starting frequency 3";
     "25.0%"; "starting frequency 0.25"; "no solution"; "starting frequency 3"; "37.5%"; "starting frequency 0.25"; "no solution"; "starting frequency 3";
     "50.0%"; "starting frequency 0.25"; "starting frequency 3"; "62.5%"; "starting frequency 0.25"; "starting frequency 3";
     "75.0%"; "starting frequency 0.25"; "no solution"; "starting frequency 3"; "87.5%"; "starting frequency 0.25"; "no solution"; "starting frequency 3"]%string /\
  match fst (fst (printed false)) with Ok _ => None | Err x => Some x end = Some LinAlgError /\
  map (line_text this (fun _ => "no solution"%string)) (snd (printed false)) =
    ["0.0%"; "starting frequency 0.25"; "starting frequency 3"; "12.5%"; "starting frequency 0.25"; "starting frequency 3"; "25.0%"; "starting frequency 0.25"; "no solution"]%string /\
  reported (snd (printed false)) = [LinAlgError] /\
  (* at least 2000 steps are needed for 100.0% *)
  map (fun p => percent (fst p) (snd p)) [(0, 3); (1, 3); (2, 3); (1, 400); (3, 2000); (1998, 1999); (1999, 2000)] =
    ["0.0%"; "33.3%"; "66.7%"; "0.2%"; "0.1%"; "99.9%"; "100.0%"]%string.
Proof. repeat (split; [vm_compute; reflexivity|]). vm_compute. reflexivity. Qed.
