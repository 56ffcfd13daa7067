(** Recordings of one frequency: the coefficients of each window are the field turned
    by the phase of the window. *)
From Coq Require Import Reals Lra Lia.
From Coquelicot Require Import Complex.
From Verif Require Import Base BaseLemmas Arith OrdLaws SyncModel TagsModel SetModel SpecSet SetProofs FourierModel SpecFourier FourierProofs FourierSet FourierReal
  MestModel RobustModel BiModel FullModel UtilsModel SpecUtils UtilsProofs UtilsRun SpecMass StageProofs StackProofs WholeModel SpecWhole SpecRemote SpecReport SpecTones WholeReport ReportProofs TonesCount.
Open Scope nat_scope.

(** ** One window *)
Lemma r_dot_cdot x y : r_dot x y = cdot x (map RtoC y).
Proof.
  unfold r_dot, cdot. revert y. induction x as [|u x IH]; intros [|v y]; try reflexivity.
  cbn [combine fold_right map fst snd]. rewrite IH. reflexivity.
Qed.
Lemma real_part z : RtoC (fst z) = ((z + Cconj z) / RtoC 2)%C.
Proof. destruct z as [a b]. unfold Cdiv, Cinv, Cconj, Cplus, Cmult, RtoC. cbn [fst snd]. f_equal; field. Qed.
Lemma conj_mul a b : Cconj (a * b)%C = (Cconj a * Cconj b)%C.
Proof. unfold Cconj, Cmult. cbn [fst snd]. f_equal; ring. Qed.
Lemma conj_turn t : Cconj (cis t) = cis (- t).
Proof. unfold Cconj, cis. cbn [fst snd]. rewrite cos_neg, sin_neg. reflexivity. Qed.

Lemma csum_fourier n f : SpecRemote.csum n f = FourierReal.csum f n.
Proof.
  assert (G : forall l x, fold_right Cplus (RtoC 0) (l ++ [x]) = (fold_right Cplus (RtoC 0) l + x)%C).
  { induction l as [|y l IH]; intros x; cbn [app fold_right]; [ring|]. rewrite IH. ring. }
  induction n as [|n IH]; [reflexivity|]. unfold SpecRemote.csum in *. rewrite seq_S, map_app. cbn [map Nat.add]. rewrite G, IH. reflexivity.
Qed.

Lemma window_coeff amp nf L a (x v : list C) (w y : list R) : L <> 0 ->
  oscillates amp nf y -> length x = L -> (forall n, n < L -> nth_error x n = Some (r_tone nf L n * nth n v (RtoC 0))%C) ->
  SpecRemote.csum L (fun n => Cmult (nth n v (RtoC 0)) (turn (- (2 * (2 * PI * nf) * INR n)))) = RtoC 0 -> stretch y a L w ->
  r_dot x w = (amp * (cis (2 * PI * nf * INR a) * (RtoC (/ INR L) * SpecRemote.csum L (fun n => nth n v (RtoC 0)))))%C.
Proof.
  intros HL Hy Ex Hx Hleak (Hfit & Ew & Hw). rewrite csum_fourier in *.
  set (om := (2 * PI * nf)%R) in *. set (th := (om * INR a)%R).
  assert (HLR : (INR L <> 0)%R) by (apply not_0_INR, HL).
  set (c1 := (RtoC (/ INR L) * (amp * cis th))%C). set (c2 := (RtoC (/ INR L) * (Cconj amp * cis (- th)))%C).
  rewrite r_dot_cdot, (cdot_sum x (map RtoC w) (fun n => c1 * nth n v (RtoC 0) + c2 * (nth n v (RtoC 0) * turn (- (2 * om * INR n))))%C).
  - rewrite csum_lin, map_length, Ew, Hleak. unfold c1. ring.
  - rewrite map_length. congruence.
  - intros n u u' Hu Hv. apply nth_error_map_some in Hv as (v' & Hv & ->).
    assert (Hn : n < L) by (rewrite <- Ew; apply nth_error_Some; congruence).
    rewrite (Hx n Hn) in Hu. injection Hu as <-. rewrite (Hw n Hn) in Hv. apply Hy in Hv. subst v'.
    rewrite real_part, conj_mul. change (turn ?t) with (cis t). rewrite conj_turn, plus_INR.
    replace (2 * PI * nf * (INR a + INR n))%R with (th + om * INR n)%R by (unfold th, om; ring).
    change (r_tone nf L n) with (cis (- (2 * PI * nf * INR n)) * RtoC (2 / INR L))%C. fold om. unfold c1, c2.
    transitivity (RtoC (/ INR L) * nth n v (RtoC 0) * (amp * (cis (- (om * INR n)) * cis (th + om * INR n)) + Cconj amp * (cis (- (om * INR n)) * cis (- (th + om * INR n)))))%C.
    + rewrite !cis_add. replace (- (om * INR n) + (th + om * INR n))%R with th by ring.
      replace (- (om * INR n) + - (th + om * INR n))%R with (- th + - (2 * om * INR n))%R by ring. rewrite <- cis_add. ring.
    + unfold Rdiv. rewrite RtoC_mult, RtoC_inv by exact HLR. field. split; intros E; apply (f_equal fst) in E; simpl in E; [lra|exact (HLR E)].
Qed.
(** windows of no special shape over whole periods *)
Lemma flat_leak nf L (m : Z) : L <> 0 -> (0 < nf < 1 / 2)%R -> (INR L * nf)%R = IZR m ->
  SpecRemote.csum L (fun n => Cmult (nth n (repeat (RtoC 1) L) (RtoC 0)) (turn (- (2 * (2 * PI * nf) * INR n)))) = RtoC 0 /\
  SpecRemote.csum L (fun n => nth n (repeat (RtoC 1) L) (RtoC 0)) <> RtoC 0.
Proof.
  intros HL (Hf0 & Hf1) Hm. rewrite !csum_fourier. set (om := (2 * PI * nf)%R).
  assert (N1 : forall n, n < L -> nth n (repeat (RtoC 1) L) (RtoC 0) = RtoC 1) by (intros n Hn; exact (nth_error_nth _ _ _ (nth_error_repeat (RtoC 1) Hn))).
  split.
  - rewrite (FourierReal.csum_ext _ (fun n => cis (- (2 * om) * INR n))).
    2:{ intros n Hn. rewrite N1 by exact Hn. change (turn ?t) with (cis t). replace (- (2 * om * INR n))%R with (- (2 * om) * INR n)%R by ring. ring. }
    apply (C_integral _ (cis (- (2 * om)) - RtoC 1)%C).
    + rewrite geometric. replace (- (2 * om) * INR L)%R with (2 * PI * IZR (- (2 * m)))%R.
      * rewrite cis_period. ring.
      * unfold om. rewrite opp_IZR, mult_IZR, <- Hm. ring.
    + assert (Ht : (0 < 2 * om < 2 * PI)%R) by (pose proof PI_RGT_0; unfold om; split; nra).
      intros E. apply (cis_neq_1 _ Ht). replace (cis (- (2 * om))) with ((cis (- (2 * om)) - RtoC 1) + RtoC 1)%C by ring. rewrite E. ring.
  - rewrite (FourierReal.csum_ext _ (fun _ => RtoC 1)) by exact N1.
    assert (H1 : forall K, FourierReal.csum (fun _ => RtoC 1) K = RtoC (INR K)).
    { clear. induction K as [|K IH]; [reflexivity|]. simpl FourierReal.csum. rewrite IH, S_INR, RtoC_plus. reflexivity. }
    rewrite H1. intros E. injection E as E. exact (not_0_INR _ HL E).
Qed.

(** ** All windows *)
Fixpoint locate (Ns : list nat) (t : nat) : nat * nat :=
  match Ns with
  | [] => (0, t)
  | N :: Ns => if t <? N then (0, t) else (S (fst (locate Ns (t - N))), snd (locate Ns (t - N)))
  end.
Lemma locate_nth {T} (d : T) : forall parts Ns t, map (@length T) parts = Ns -> t < list_sum Ns ->
  exists part, nth_error parts (fst (locate Ns t)) = Some part /\ snd (locate Ns t) < length part /\
    nth t (concat parts) d = nth (snd (locate Ns t)) part d.
Proof.
  induction parts as [|part parts IH]; intros Ns t <- Ht; [simpl in Ht; lia|]. cbn [map locate list_sum fold_right concat] in *.
  destruct (Nat.ltb_spec t (length part)) as [H|H].
  - exists part. cbn [fst snd]. split; [reflexivity|]. split; [exact H|]. apply app_nth1, H.
  - cbn [fst snd]. destruct (IH _ (t - length part) eq_refl) as (q & Hq & Hl & E); [unfold list_sum; lia|].
    exists q. split; [exact Hq|]. split; [exact Hl|]. rewrite app_nth2 by exact H. exact E.
Qed.
Lemma locate_run : forall Ns r N, nth_error Ns r = Some N -> 0 < N -> exists t, t < list_sum Ns /\ fst (locate Ns t) = r.
Proof.
  induction Ns as [|M Ns IH]; intros [|r] N H HN; try discriminate; cbn [nth_error] in H.
  - injection H as ->. exists 0. cbn [locate list_sum fold_right]. destruct (Nat.ltb_spec 0 N); [|lia]. split; [lia|reflexivity].
  - destruct (IH r N H HN) as (t & Ht & E). exists (M + t). cbn [locate list_sum fold_right]. unfold list_sum in *. destruct (Nat.ltb_spec (M + t) M); [lia|].
    replace (M + t - M) with t by lia. cbn [fst]. split; [lia|]. rewrite E. reflexivity.
Qed.
Lemma locate_lt : forall Ns t, t < list_sum Ns -> fst (locate Ns t) < length Ns.
Proof.
  induction Ns as [|N Ns IH]; intros t Ht; [simpl in Ht; lia|]. cbn [locate list_sum fold_right length] in *. unfold list_sum in *.
  destruct (Nat.ltb_spec t N); cbn [fst]; [lia|]. specialize (IH (t - N)). lia.
Qed.

Lemma set_fourier_runs (fo : fopts) (X : recordings) f coeffs Nws Ls shs : coefficients fo X f = Ok (coeffs, (Nws, Ls, shs)) ->
  forall r s, nth_error (ss_signals X) r = Some s -> exists N L sh co, nth_error Nws r = Some N /\ nth_error Ls r = Some L /\ nth_error shs r = Some sh /\
    time_to_freq (A := RA) r_tone Cmult r_dot (s_data s) (s_rate s) f (fo_nper fo) (fo_overlap fo) (fo_window fo) = Ok (co, (N, L, sh)).
Proof.
  unfold coefficients, set_fourier. intros H r s Hr. apply bind_ok in H as (l & Hl & H).
  destruct (mapM_nth _ _ _ _ _ Hl Hr) as ([co [[N L] sh]] & Hco & E).
  assert (Hres : map (fun w => fst (fst w)) (map snd l) = Nws /\ map (fun w => snd (fst w)) (map snd l) = Ls /\ map snd (map snd l) = shs).
  { destruct l; [discriminate|]. injection H as _ <- <- <-. repeat split. }
  destruct Hres as (<- & <- & <-).
  unfold sync_fourier in E. apply bind_ok in E as (cs & _ & E). apply bind_ok in E as (cals & _ & E). apply bind_ok in E as ([co' wd] & Ht & E).
  injection E as _ ->. exists N, L, sh, co'. rewrite !nth_error_map, Hco. repeat split. exact Ht.
Qed.

Lemma window_pos size nf Nper ov nw L sh : discrete_window (A := RA) size nf Nper ov = Ok (nw, Z.of_nat L, Z.of_nat sh) ->
  (0 < nf)%R /\ L <> 0 /\ (1 <= nw)%Z.
Proof.
  intros H. pose proof (discrete_window_pos _ _ _ _ _ _ _ H) as (Hs & _ & Hn). unfold discrete_window in H.
  apply bind_ok in H as (u & _ & H). apply bind_ok in H as ([] & Hf & H). apply check_ok in Hf. apply andb_true_iff in Hf as [Hf _].
  split; [cbn [nltb nzero RA] in Hf; unfold Rltb in Hf; destruct (Rlt_dec 0 nf); [assumption|discriminate]|].
  split; [|exact Hn]. intros ->. apply bind_ok in H as (Lw & _ & H). apply bind_ok in H as (shift & Hsh & H).
  assert (E : Lw = 0%Z /\ shift = Z.of_nat sh).
  { destruct (shift =? 0)%Z; [destruct (0 <? _)%Z; discriminate|]. destruct (_ <? 1)%Z; [discriminate|]. injection H as _ -> ->. auto. }
  destruct E as (-> & ->). apply Hs. unfold ntrunc in Hsh. cbn [nmul nofZ nsub n1 nltb nzero nceil nfloor RA] in Hsh.
  replace (IZR 0 * (1 - ov))%R with 0%R in Hsh by ring. unfold Rltb in Hsh. destruct (Rlt_dec 0 0) as [D|_]; [lra|].
  injection Hsh as Hsh. rewrite <- Hsh. unfold Int_part. rewrite <- (tech_up 0 1); [reflexivity| |]; simpl; lra.
Qed.

Section Tones.
Variables (fo : fopts) (kone : calibration) (X : recordings) (f : R) (field : nat -> nat -> C) (coeffs : list (list C)) (Nws Ls shs : list nat).
Hypotheses (Hr : reach kone X) (Hc : coefficients fo X f = Ok (coeffs, (Nws, Ls, shs))) (Hp : no_leak f X (fo_window fo) Ls).

(** what all channels are multiplied with in window [t], not 0 *)
Definition gain (t : nat) (p : C) : Prop :=
  p <> RtoC 0 /\ forall cs c, sinusoidal f field X cs -> In c cs -> at_window coeffs c t = Cmult (field (fst (locate Nws t)) c) p.
Lemma cis_nz x : cis x <> RtoC 0.
Proof. intros E. injection E as E1 E2. pose proof (sin2_cos2 x) as S. rewrite E1, E2 in S. unfold Rsqr in S. lra. Qed.
Lemma mul_nz (a b : C) : a <> RtoC 0 -> b <> RtoC 0 -> Cmult a b <> RtoC 0.
Proof. intros Ha Hb E. apply Ha. exact (C_integral _ _ E Hb). Qed.

Lemma wf_X : wf_set X.
Proof. exact (reach_wf kone RA_ord X Hr). Qed.
Lemma nb_windows : length Nws = length (ss_signals X) /\ forall r N, nth_error Nws r = Some N -> 2 <= N.
Proof.
  destruct (set_fourier_spec _ _ _ _ _ X f _ _ _ coeffs Nws Ls shs wf_X Hc) as (_ & N1 & _). split; [exact N1|].
  intros r N HN. assert (Hlt : r < length (ss_signals X)) by (change (r < nb_runs X); rewrite <- N1; apply nth_error_Some; congruence).
  destruct (nth_error (ss_signals X) r) as [s|] eqn:Es; [|apply nth_error_None in Es; lia].
  destruct (set_fourier_runs _ _ _ _ _ _ _ Hc r s Es) as (N' & L & sh & co & E1 & _ & _ & Ht). rewrite HN in E1. injection E1 as <-.
  apply time_to_freq_spec in Ht as (size & nw & _ & _ & _ & Hdw & HNw & _). destruct (window_pos _ _ _ _ _ _ _ Hdw) as (_ & _ & H). lia.
Qed.
Lemma tone_channel t : t < list_sum Nws -> exists p, gain t p.
Proof.
  intros Ht. destruct (set_fourier_spec _ _ _ _ _ X f _ _ _ coeffs Nws Ls shs wf_X Hc) as (Lc & N1 & N2 & N3 & Hl).
  pose proof (locate_lt Nws t Ht) as Hlt. rewrite N1 in Hlt. unfold nb_runs in Hlt.
  destruct (nth_error (ss_signals X) (fst (locate Nws t))) as [s|] eqn:Es; [|apply nth_error_None in Es; lia].
  destruct (set_fourier_runs _ _ _ _ _ _ _ Hc _ s Es) as (N & L & sh & co & _ & EL & Esh & Htf).
  apply time_to_freq_spec in Htf as (size & nw & _ & _ & _ & Hdw & _). destruct (window_pos _ _ _ _ _ _ _ Hdw) as (_ & HL & _).
  destruct (Hp _ s L Es EL) as (v & Hv & Leak & Mean).
  exists (cis (2 * PI * (f / s_rate s) * INR (snd (locate Nws t) * sh)) * (RtoC (/ INR L) * SpecRemote.csum L (fun n => nth n v (RtoC 0))))%C.
  split.
  { apply mul_nz; [apply cis_nz|]. apply mul_nz; [|exact Mean]. intros E. injection E as E. exact (Rinv_neq_0_compat _ (not_0_INR _ HL) E). }
  intros cs c Hs Hin. destruct (Hs _ s c Es Hin) as (y & k & u & Hy & Hk & Hu & Nu & Ho).
  assert (Hc' : c < length coeffs).
  { rewrite Lc. assert (c < length (s_data s)) by (apply nth_error_Some; congruence).
    pose proof (ws_chan _ wf_X s (nth_error_In _ _ Es)) as W. unfold nb_channels, nb_channels_of.
    destruct (ss_signals X) as [|s0 ss] eqn:ES; [destruct (fst (locate Nws t)); discriminate|]. rewrite <- ES in *.
    pose proof (ws_chan _ wf_X s0) as W0. rewrite W0 by (rewrite ES; left; reflexivity). lia. }
  unfold at_window. destruct (nth_error coeffs c) as [line|] eqn:El; [|apply nth_error_None in El; lia].
  rewrite (nth_error_nth _ _ _ El). destruct (Hl c line El) as (_ & parts & -> & Ep & Hpart).
  destruct (locate_nth (RtoC 0) parts Nws t Ep Ht) as (part & Hpt & Hk2 & E). rewrite E.
  destruct (Hpart _ _ Hpt) as (s' & L' & sh' & Es' & EL' & Esh' & g & u' & o & x & (G1 & G2 & _) & Hu' & Ha & (Ex & Hx) & Hz).
  rewrite Es in Es'. injection Es' as <-. rewrite EL in EL'. injection EL' as <-. rewrite Esh in Esh'. injection Esh' as <-.
  rewrite Hy in G1. injection G1 as G1. rewrite Hk in G2. injection G2 as G2.
  rewrite <- G2, Hu in Hu'. injection Hu' as <-.
  destruct (nth_error part (snd (locate Nws t))) as [z|] eqn:Ez; [|apply nth_error_None in Ez; lia].
  rewrite (nth_error_nth _ _ _ Ez). apply Hz in Ez as (win & Hst & ->). rewrite <- G1 in Hst.
  assert (Hxv : forall n, n < L -> nth_error x n = Some (r_tone (f / s_rate s) L n * nth n v (RtoC 0))%C).
  { intros n Hn. specialize (Hx n Hn). destruct (fo_window fo) as [|w|w]; cbn [asked window_values] in Ha, Hv.
    - subst o v. rewrite Hx, (nth_error_nth _ _ _ (nth_error_repeat (RtoC 1) Hn)), Cmult_1_r. reflexivity.
    - destruct Ha as (-> & _). subst v. destruct Hx as (e & He & Hx). rewrite Hx, (nth_error_nth _ _ _ He). reflexivity.
    - destruct Ha as (w' & Hw' & -> & _). rewrite Hv in Hw'. injection Hw' as <-. destruct Hx as (e & He & Hx). rewrite Hx, (nth_error_nth _ _ _ He). reflexivity. }
  rewrite (window_coeff (Cmult u (field (fst (locate Nws t)) c)) (f / s_rate s) L (snd (locate Nws t) * sh) x v win y HL Ho Ex Hxv Leak Hst).
  field. exact Nu.
Qed.
End Tones.

Lemma csum_factor n a b (p : C) : SpecRemote.csum n (fun j => Cmult (a j) (Cmult (b j) p)) = Cmult (SpecRemote.csum n (fun j => Cmult (a j) (b j))) p.
Proof.
  unfold SpecRemote.csum. induction (seq 0 n) as [|j l IH]; cbn [map fold_right]; [ring|]. rewrite IH. ring.
Qed.
Lemma csum_same n f g : (forall j, j < n -> f j = g j) -> SpecRemote.csum n f = SpecRemote.csum n g.
Proof.
  intros H. unfold SpecRemote.csum. f_equal. apply map_ext_in. intros j Hj. apply H. apply in_seq in Hj. lia.
Qed.
Lemma sum_twice Ns : (forall r N, nth_error Ns r = Some N -> 2 <= N) -> 2 * length Ns <= list_sum Ns.
Proof.
  induction Ns as [|N Ns IH]; intros H; [simpl; lia|]. pose proof (H 0 N eq_refl). specialize (IH (fun r M => H (S r) M)). unfold list_sum in *. simpl in *. lia.
Qed.

Theorem whole_shaped fo a (kone : calibration) (X : recordings) f (field : nat -> nat -> C) coeffs Nws Ls shs z es bs :
  reach kone X -> least_squares a -> ia_keep a = true -> t_get (ss_tags X) (ia_elec a) = Ok es -> t_get (ss_tags X) (ia_mag a) = Ok bs ->
  remote_name a = None ->
  coefficients fo X f = Ok (coeffs, (Nws, Ls, shs)) -> no_leak f X (fo_window fo) Ls ->
  sinusoidal f field X (es ++ bs) -> transferred field X es bs z -> polarised field X bs ->
  exists x, whole_impedance fo a X [f] = Ok [x] /\ ir_z listU x = Values z /\
    exists err, ir_err listU x = Values err /\ forall i j, i < length es -> j < length bs -> nth_error (nth i err []) j = Some (Fin 0%R).
Proof.
  intros Hr Hls Hk He Hb Hrn Hc Hp Hs (Tz & Ht) Hpol.
  destruct (nb_windows fo kone X f coeffs Nws Ls shs Hr Hc) as (LN & HN).
  assert (HE : forall t, t < list_sum Nws -> exists p, p <> RtoC 0 /\ forall c, In c (es ++ bs) -> at_window coeffs c t = Cmult (field (fst (locate Nws t)) c) p).
  { intros t Hlt. destruct (tone_channel fo kone X f field coeffs Nws Ls shs Hr Hc Hp t Hlt) as (p & Np & H). exists p. split; [exact Np|].
    intros c Hin. exact (H (es ++ bs) c Hs Hin). }
  assert (Hib : forall j, j < length bs -> In (nth j bs 0) (es ++ bs)) by (intros j Hj; apply in_or_app; right; apply nth_In, Hj).
  assert (Comb : forall v t p, (forall c, In c (es ++ bs) -> at_window coeffs c t = Cmult (field (fst (locate Nws t)) c) p) -> combination coeffs v bs t =
     Cmult (SpecRemote.csum (length bs) (fun j => Cmult (v j) (field (fst (locate Nws t)) (nth j bs 0)))) p).
  { intros v t p Hpt. unfold combination. rewrite <- csum_factor. apply csum_same. intros j Hj. unfold channel. rewrite (Hpt _ (Hib j Hj)). reflexivity. }
  destruct (whole_no_noise fo a kone X [f] (fun _ => z) es bs Hr Hls Hk He Hb Hrn) as (out & Eo & Lo & Ho).
  { intros f' [<-|[]]. exists coeffs, (Nws, Ls, shs), (list_sum Nws). split; [exact Hc|].
    assert (Nb : bs <> []) by exact (tag_sizes RA_ord kone X _ _ Hr Hb).
    split.
    { pose proof (@TonesCount.independent_le (length (ss_signals X)) (length bs) (fun r j => field r (nth j bs 0)) Hpol) as L1.
      pose proof (sum_twice Nws HN) as L2. destruct bs; [congruence|]. simpl in *. lia. }
    destruct (set_fourier_spec _ _ _ _ _ X f _ _ _ coeffs Nws Ls shs (wf_X kone X Hr) Hc) as (Lc & _ & _ & _ & Hl).
    assert (Nn : ss_signals X <> []) by (intros E; unfold coefficients in Hc; rewrite (set_fourier_empty _ _ _ _ _ X) in Hc by exact E; discriminate).
    split.
    { intros c Hin. destruct (ss_signals X) as [|s ss] eqn:ES; [congruence|].
      destruct (Hs 0 s c) as (y & k & v & Hy & _); [rewrite ES; reflexivity|exact Hin|].
      destruct (nth_error coeffs c) as [line|] eqn:El; [exists line; split; [reflexivity|apply (Hl c line El)]|].
      exfalso. apply nth_error_None in El. rewrite Lc in El. unfold nb_channels, nb_channels_of in El. rewrite ES in El.
      assert (c < length (s_data s)) by (apply nth_error_Some; congruence). lia. }
    split.
    { intros v Hv. apply Hpol. intros r Hlt. destruct (nth_error Nws r) as [N|] eqn:EN; [|apply nth_error_None in EN; lia].
      destruct (locate_run Nws r N EN) as (t & Hlt' & <-); [specialize (HN r N EN); lia|].
      specialize (Hv t Hlt'). destruct (HE t Hlt') as (p & Np & Hpt). rewrite (Comb v t p Hpt) in Hv. exact (C_integral _ _ Hv Np). }
    split; [exact Tz|]. intros i t Hi Hlt. destruct (HE t Hlt) as (p & _ & Hpt). unfold noise, channel at 1. rewrite Hpt by (apply in_or_app; left; apply nth_In, Hi).
    rewrite (Comb _ t p Hpt), (Ht (fst (locate Nws t)) i) by (try exact Hi; rewrite <- LN; apply locate_lt, Hlt). ring. }
  destruct out as [|x [|x' out]]; try discriminate. exists x. split; [exact Eo|]. exact (Ho 0 f x eq_refl eq_refl).
Qed.

Lemma flat_no_leak fo (kone : calibration) (X : recordings) f coeffs Nws Ls shs : reach kone X -> coefficients fo X f = Ok (coeffs, (Nws, Ls, shs)) ->
  whole_periods f X Ls -> no_leak f X (WNone (C := C)) Ls.
Proof.
  intros Hr Hc Hp r s L Es EL. exists (repeat (RtoC 1) L). split; [reflexivity|].
  destruct (set_fourier_runs _ _ _ _ _ _ _ Hc _ s Es) as (N & L' & sh & co & _ & EL' & _ & Htf). rewrite EL in EL'. injection EL' as <-.
  apply time_to_freq_spec in Htf as (size & nw & _ & _ & _ & Hdw & _). destruct (window_pos _ _ _ _ _ _ _ Hdw) as (Hf0 & HL & _).
  destruct (Hp _ s L Es EL) as (Hf1 & m & Hm). exact (flat_leak (f / s_rate s) L m HL (conj Hf0 Hf1) Hm).
Qed.
Theorem whole_tones fo a (kone : calibration) (X : recordings) f (field : nat -> nat -> C) coeffs Nws Ls shs z es bs :
  reach kone X -> least_squares a -> ia_keep a = true -> t_get (ss_tags X) (ia_elec a) = Ok es -> t_get (ss_tags X) (ia_mag a) = Ok bs ->
  remote_name a = None -> fo_window fo = WNone (C := C) ->
  coefficients fo X f = Ok (coeffs, (Nws, Ls, shs)) -> whole_periods f X Ls ->
  sinusoidal f field X (es ++ bs) -> transferred field X es bs z -> polarised field X bs ->
  exists x, whole_impedance fo a X [f] = Ok [x] /\ ir_z listU x = Values z /\
    exists err, ir_err listU x = Values err /\ forall i j, i < length es -> j < length bs -> nth_error (nth i err []) j = Some (Fin 0%R).
Proof.
  intros Hr Hls Hk He Hb Hrn Hw Hc Hp. apply (whole_shaped fo a kone X f field coeffs Nws Ls shs z es bs Hr Hls Hk He Hb Hrn Hc).
  rewrite Hw. exact (flat_no_leak fo kone X f coeffs Nws Ls shs Hr Hc Hp).
Qed.
