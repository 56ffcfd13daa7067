(** Sinusoidal fields fit exactly: complete robust estimates of them fail. *)
From Coq Require Import Reals Lra Lia.
From Coquelicot Require Import Complex.
From Verif Require Import Base BaseLemmas Arith OrdLaws TagsModel SyncModel SetModel SpecSet SetProofs FourierModel FourierSet FourierReal MestModel WeightModel RobustModel BiModel SpecFull FullModel PrefilterModel
  UtilsModel SpecUtils UtilsProofs UtilsRun StageProofs StackProofs WholeModel SpecWhole SpecRemote SpecReport SpecTones WholeReport ReportProofs TonesProofs TonesCount SpecExactFit ExactFitProofs.
Open Scope nat_scope.

Lemma tones_fit fo (kone : calibration) (X : recordings) f (field : nat -> nat -> C) coeffs Nws Ls shs z channels outs ins i :
  reach kone X -> coefficients fo X f = Ok (coeffs, (Nws, Ls, shs)) -> no_leak f X (fo_window fo) Ls ->
  sinusoidal f field X channels -> incl outs channels -> incl ins channels -> ins <> [] ->
  transferred field X outs ins z -> polarised field X ins -> i < length outs -> exact_fit fo X f channels outs ins i.
Proof.
  intros Hr Hc Hp Hs Io Ii Ni (Tz & Ht) Hpol Hi.
  destruct (nb_windows fo kone X f coeffs Nws Ls shs Hr Hc) as (LN & HN).
  assert (HE : forall t, t < list_sum Nws -> exists p, p <> RtoC 0 /\ forall c, In c channels -> at_window coeffs c t = Cmult (field (fst (locate Nws t)) c) p).
  { intros t Hlt. destruct (tone_channel fo kone X f field coeffs Nws Ls shs Hr Hc Hp t Hlt) as (p & Np & H). exists p. split; [exact Np|].
    intros c Hin. exact (H channels c Hs Hin). }
  assert (Hib : forall j, j < length ins -> In (nth j ins 0) channels) by (intros j Hj; apply Ii, nth_In, Hj).
  assert (Comb : forall v t p, (forall c, In c channels -> at_window coeffs c t = Cmult (field (fst (locate Nws t)) c) p) -> combination coeffs v ins t =
     Cmult (SpecRemote.csum (length ins) (fun j => Cmult (v j) (field (fst (locate Nws t)) (nth j ins 0)))) p).
  { intros v t p Hpt. unfold combination. rewrite <- csum_factor. apply csum_same. intros j Hj. unfold channel. rewrite (Hpt _ (Hib j Hj)). reflexivity. }
  exists coeffs, (Nws, Ls, shs), (list_sum Nws). split; [exact Hc|]. split.
  { pose proof (@TonesCount.independent_le (length (ss_signals X)) (length ins) (fun r j => field r (nth j ins 0)) Hpol) as L1.
    pose proof (sum_twice Nws HN) as L2. destruct ins; [congruence|]. simpl in *. lia. }
  destruct (set_fourier_spec _ _ _ _ _ X f _ _ _ coeffs Nws Ls shs (wf_X kone X Hr) Hc) as (Lc & _ & _ & _ & Hl).
  assert (Nn : ss_signals X <> []) by (intros E; unfold coefficients in Hc; rewrite (set_fourier_empty _ _ _ _ _ X) in Hc by exact E; discriminate).
  split.
  { intros c Hin. destruct (ss_signals X) as [|s ss] eqn:ES; [congruence|].
    destruct (Hs 0 s c) as (y & k & v & Hy & _); [rewrite ES; reflexivity|exact Hin|].
    destruct (nth_error coeffs c) as [line|] eqn:El; [exists line; split; [reflexivity|apply (Hl c line El)]|].
    exfalso. apply nth_error_None in El. rewrite Lc in El. unfold nb_channels, nb_channels_of in El. rewrite ES in El.
    assert (c < length (s_data s)) by (apply nth_error_Some; congruence). lia. }
  split.
  { intros v Hv. apply Hpol. intros r Hlt. destruct (nth_error Nws r) as [N|] eqn:EN; [|apply nth_error_None in EN; lia].
    destruct (locate_run Nws r N EN) as (t & Hlt' & <-); [specialize (HN r N EN); lia|].
    specialize (Hv t Hlt'). destruct (HE t Hlt') as (p & Np & Hpt). rewrite (Comb v t p Hpt) in Hv. exact (C_integral _ _ Hv Np). }
  split; [exact Hi|]. exists (fun j => nth j (nth i z []) (RtoC 0)). intros t Hlt. destruct (HE t Hlt) as (p & _ & Hpt).
  unfold channel. rewrite Hpt by (apply Io, nth_In, Hi).
  rewrite (Comb _ t p Hpt), (Ht (fst (locate Nws t)) i) by (try exact Hi; rewrite <- LN; apply locate_lt, Hlt). reflexivity.
Qed.

Theorem tones_robust fo a (kone : calibration) (X : recordings) f (field : nat -> nat -> C) coeffs Nws Ls shs z es bs rs outs ins ws :
  reach kone X -> first_estimation a X es bs rs outs ins ws -> robust ws -> (0 < o_maxit (ia_opts a))%Z -> ia_real_pb a = false ->
  coefficients fo X f = Ok (coeffs, (Nws, Ls, shs)) -> no_leak f X (fo_window fo) Ls ->
  sinusoidal f field X (es ++ bs ++ rs) -> transferred field X outs ins z -> polarised field X ins ->
  whole_impedance fo a X [f] = if ia_silent a then Ok [nan_result (length es) (length bs) (length rs)] else Err ValueError.
Proof.
  intros Hr Fe Rw Pm Rp Hc Hp Hs Ht Hpol.
  assert (G : bs <> [] /\ outs <> [] /\ ins <> [] /\ incl outs (es ++ bs ++ rs) /\ incl ins (es ++ bs ++ rs)).
  { destruct Fe as (He & Hb & _ & H). pose proof (tag_sizes RA_ord kone X _ _ Hr Hb) as Nb. pose proof (tag_sizes RA_ord kone X _ _ Hr He) as Ne.
    split; [exact Nb|]. destruct (ia_remote a) as [r|].
    - destruct H as (_ & Hrs & _ & -> & -> & _). pose proof (tag_sizes RA_ord kone X _ _ Hr Hrs) as Nr.
      repeat (split; [assumption|]). split; intros c Hin; apply in_or_app; right; apply in_or_app; tauto.
    - destruct H as (-> & -> & -> & _). repeat (split; [assumption|]). split; intros c Hin; apply in_or_app; [left; exact Hin|right; apply in_or_app; left; exact Hin]. }
  destruct G as (Nb & No & Ni & Io & Ii).
  assert (F : exact_fit fo X f (es ++ bs ++ rs) outs ins 0).
  { apply (tones_fit fo kone X f field coeffs Nws Ls shs z); try assumption. destruct outs; [congruence|simpl; lia]. }
  destruct (ia_silent a) eqn:Sa.
  - apply (@exact_all fo a X es bs rs outs ins ws Fe Rw Pm Nb Ni [f] Sa). intros f' [<-|[]]. exists 0. exact F.
  - exact (@exact_error fo a X es bs rs outs ins ws Fe Rw Pm Nb Ni [] f Sa Rp F).
Qed.

(** the sequences of weights of the library *)
Lemma mest_robust alpha id : robust (weightings listW (mest_weights (k := listK) alpha id)).
Proof. exists (Huber (k := listK) alpha), [Some (Thomson (k := listK) id None)]. split; reflexivity. Qed.
Lemma bi_robust alpha lower upper n_step id : robust (weightings listW (bi_weights (k := listK) alpha lower upper n_step id)).
Proof.
  unfold bi_weights. cbv zeta.
  set (g := fun i : nat => _). assert (G : forall i, exists w, g i = Some w /\ of_library w = true) by (intros i; eexists; split; reflexivity). clearbody g.
  set (last := BoundedInfluence _ _ lower upper). assert (Gl : of_library last = true) by reflexivity. clearbody last.
  destruct (Z.to_nat n_step) as [|m] eqn:E.
  - exists last, []. split; [exact Gl|reflexivity].
  - rewrite seq_S, map_app, rev_app_distr. cbn [map rev app]. destruct (G (0 + m)) as (w & -> & Hw).
    eexists w, _. split; [exact Hw|]. reflexivity.
Qed.
