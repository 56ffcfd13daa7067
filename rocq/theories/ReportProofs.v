(** Errors of complete estimates without noise, and what is left of failures. *)
From Coq Require Import Reals Lra Lia.
From Coquelicot Require Import Complex.
From Verif Require Import Base BaseLemmas Arith OrdLaws TagsModel SyncModel SetModel SpecSet SetProofs FourierModel FourierSet MestModel WeightModel RobustModel BiModel FullModel PrefilterModel
  UtilsModel SpecUtils UtilsProofs UtilsRun SpecMass StageProofs StackProofs WholeModel SpecWhole SpecRemote SpecReport WholeExact WholeReport.
Open Scope nat_scope.

Lemma csum_zero n f : (forall t, t < n -> f t = RtoC 0) -> csum n f = RtoC 0.
Proof.
  unfold csum. intros H. assert (G : forall l, (forall t, In t l -> t < n) -> fold_right Cplus (RtoC 0) (map f l) = RtoC 0).
  { induction l as [|t l IH]; [reflexivity|]. cbn [map fold_right]. intros Hl. rewrite H by (apply Hl; left; reflexivity).
    rewrite IH by (intros u Hu; apply Hl; right; exact Hu). unfold Cplus, RtoC. cbn [fst snd]. f_equal; lra. }
  apply G. intros t Ht. apply in_seq in Ht. lia.
Qed.
Lemma rsum_zero n f : (forall t, t < n -> f t = 0%R) -> rsum n f = 0%R.
Proof.
  unfold rsum. intros H. assert (G : forall l, (forall t, In t l -> t < n) -> fold_right Rplus 0%R (map f l) = 0%R).
  { induction l as [|t l IH]; [reflexivity|]. cbn [map fold_right]. intros Hl. rewrite H by (apply Hl; left; reflexivity).
    rewrite IH by (intros u Hu; apply Hl; right; exact Hu). lra. }
  apply G. intros t Ht. apply in_seq in Ht. lia.
Qed.
Lemma no_noise coeffs n es bs z : table es bs z -> (forall i t, i < length es -> t < n -> noise coeffs es bs z i t = RtoC 0) -> related coeffs n es bs bs z.
Proof.
  intros Ht H. split; [exact Ht|]. intros i Hi k Hk. unfold correlation. apply csum_zero. intros t Hlt. rewrite (H i t Hi Hlt).
  unfold Cmult, RtoC. cbn [fst snd]. f_equal; lra.
Qed.
Lemma no_misfit coeffs n es bs rs z g k i j : (forall t, t < n -> noise coeffs es bs z i t = RtoC 0) ->
  error_of coeffs n es bs rs z None g k i j = 0%R.
Proof.
  intros H. unfold error_of, total_misfit. rewrite rsum_zero.
  - rewrite sqrt_0. unfold Rdiv. rewrite !Rmult_0_l. reflexivity.
  - intros t Ht. change (misfit coeffs es bs rs z None i t) with (noise coeffs es bs z i t). rewrite (H t Ht), Cmod_0. lra.
Qed.

Theorem whole_no_noise fo a (kone : calibration) (X : recordings) l_freq (z : R -> list (list C)) es bs :
  reach kone X -> least_squares a -> ia_keep a = true -> t_get (ss_tags X) (ia_elec a) = Ok es -> t_get (ss_tags X) (ia_mag a) = Ok bs ->
  remote_name a = None ->
  (forall f, In f l_freq -> exists coeffs w n, coefficients fo X f = Ok (coeffs, w) /\ length bs < n /\
     recorded coeffs n (es ++ bs) /\ separate coeffs n bs /\ table es bs (z f) /\
     forall i t, i < length es -> t < n -> noise coeffs es bs (z f) i t = RtoC 0) ->
  exists out, whole_impedance fo a X l_freq = Ok out /\ length out = length l_freq /\
    forall m f x, nth_error l_freq m = Some f -> nth_error out m = Some x -> ir_z listU x = Values (z f) /\
      exists err, ir_err listU x = Values err /\ forall i j, i < length es -> j < length bs -> nth_error (nth i err []) j = Some (Fin 0%R).
Proof.
  intros Hr Hls Hk He Hb Hrn Hf.
  pose proof (tag_sizes RA_ord kone X _ _ Hr He) as Ne. pose proof (tag_sizes RA_ord kone X _ _ Hr Hb) as Nb.
  destruct (@whole_local fo a X l_freq z es bs Hls He Hb Hrn Ne Nb) as (out & Eo & Lo & Ho).
  { intros f Hin. destruct (Hf f Hin) as (coeffs & w & n & Hc & Hn & Rc & Sp & Ht & Nz). exists coeffs, w, n.
    split; [exact Hc|]. split; [lia|]. split; [exact Rc|]. split; [exact Sp|]. apply no_noise; assumption. }
  exists out. split; [exact Eo|]. split; [exact Lo|]. intros m f x Hm Hx.
  destruct (Ho m f x Hm Hx) as (Hz & Hivt). split; [exact Hz|].
  destruct Hls as (W1 & _ & P1 & P2 & _).
  assert (Nw : ia_weights a <> []) by (rewrite W1; discriminate).
  destruct (@whole_errors fo a kone X l_freq out m f x (z f) es bs []) as (coeffs & w & n & err & T & g & Hc & Rc & Herr & _ & HT & _ & _ & Hent);
    try assumption.
  { rewrite P1; exact I. }
  { rewrite P2; exact I. }
  { rewrite Hrn. reflexivity. }
  exists err. split; [exact Herr|]. intros i j Hi Hj.
  destruct (Hf f (nth_error_In _ _ Hm)) as (coeffs' & w' & n' & Hc' & Hn' & Rc' & _ & _ & Nz).
  rewrite Hc in Hc'. injection Hc' as <- <-.
  assert (En : n = n').
  { destruct es as [|c es]; [congruence|]. destruct (Rc c (or_introl eq_refl)) as (l1 & E1 & L1). destruct (Rc' c (or_introl eq_refl)) as (l2 & E2 & L2). congruence. }
  subst n'.
  assert (Hts : nth_error (ir_ivt listU x) i = Some []) by (rewrite Hivt; apply nth_error_repeat; exact Hi).
  destruct (Hent i j [] Hi Hj Hts) as (_ & _ & v & Ev & Fv & _). rewrite Ev. f_equal.
  rewrite Fv; [|exact Hn'|simpl; lia]. f_equal. rewrite (proj2 HT Hrn). apply no_misfit. intros t Ht. apply Nz; assumption.
Qed.

Theorem whole_silent fo a (kone : calibration) (X : recordings) l_freq es bs :
  reach kone X -> ia_silent a = true -> ia_weights a <> [] -> total_prefilter (ia_prefilter a) -> total_prefilter (ia_remote_prefilter a) ->
  t_get (ss_tags X) (ia_elec a) = Ok es -> t_get (ss_tags X) (ia_mag a) = Ok bs ->
  (forall rn, with_remote (ia_remote a) rn -> exists rs, t_get (ss_tags X) rn = Ok rs) ->
  (one_shape (coefficients fo X) l_freq (length es) (length bs) -> exists out, whole_impedance fo a X l_freq = Ok out) /\
  (~ one_shape (coefficients fo X) l_freq (length es) (length bs) -> whole_impedance fo a X l_freq = Err ValueError).
Proof.
  intros Hr Hs Hw Tp Trp He Hb Hrn.
  destruct (@silent_outcome listK RA_ord listU R calibration (heap listW) kone r_tone Cmult r_dot (fun k : calibration => k) Cdiv
    (fo_nper fo) (fo_overlap fo) (fo_window fo) (@length C) a X l_freq (fresh listW) es bs list_shapes list_errors Hr Hs Hw Tp Trp He Hb Hrn)
    as (r & st' & E & H1 & H2).
  unfold whole_impedance. change (impedance listU (coefficients fo) a X l_freq (fresh listW) = (r, st')) in E. rewrite E. cbn [fst]. split; assumption.
Qed.

Theorem whole_shapes fo a (kone : calibration) (X : recordings) l_freq (out : list result) es bs :
  reach kone X -> ia_weights a <> [] -> t_get (ss_tags X) (ia_elec a) = Ok es -> t_get (ss_tags X) (ia_mag a) = Ok bs ->
  (forall rn, with_remote (ia_remote a) rn -> exists rs, t_get (ss_tags X) rn = Ok rs) ->
  whole_impedance fo a X l_freq = Ok out ->
  length out = length l_freq /\
  exists Nr n m, (n = length es /\ m = length bs \/ n = length bs /\ m = length es /\ forall f, In f l_freq -> exists x, coefficients fo X f = Err x) /\
    forall r, In r out ->
      shaped (@length C) (ir_z listU r) n m /\ eshaped (fun err => (length err, length (hd [] err))) (ir_err listU r) n m /\ shaped (@length C) (ir_T listU r) (length bs) Nr.
Proof.
  intros Hr Hw He Hb Hrn E. unfold whole_impedance in E.
  destruct (impedance listU (coefficients fo) a X l_freq (fresh listW)) as [r st'] eqn:E'. cbn [fst] in E. subst r.
  exact (@array_reach listK RA_ord listU R calibration (heap listW) kone (coefficients fo) (@length C) a X l_freq (fresh listW) es bs out st' list_shapes Hr Hw He Hb Hrn E').
Qed.
