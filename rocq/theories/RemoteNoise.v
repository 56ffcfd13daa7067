(** Complete estimates with a remote reference, without noise. *)
From Coq Require Import Reals Lra Lia.
From Coquelicot Require Import Complex.
From Verif Require Import Base BaseLemmas Arith OrdLaws TagsModel SyncModel SetModel SpecSet SetProofs FourierModel FourierSet FourierReal MestModel WeightModel RobustModel BiModel FullModel PrefilterModel
  UtilsModel SpecUtils UtilsProofs UtilsRun SpecMass StageProofs StackProofs WholeModel SpecWhole SpecRemote SpecReport SpecTones WholeExact WholeReport ReportProofs TonesProofs TonesCount.
Open Scope nat_scope.

(** ** Sums over lists *)
Definition lsum (l : list nat) (f : nat -> C) : C := fold_right Cplus (RtoC 0) (map f l).
Lemma csum_lsum n f : SpecRemote.csum n f = lsum (seq 0 n) f.
Proof. reflexivity. Qed.
Lemma lsum_0 l : lsum l (fun _ => RtoC 0) = RtoC 0.
Proof. induction l as [|t l IH]; [reflexivity|]. unfold lsum in *. cbn [map fold_right]. rewrite IH. ring. Qed.
Lemma lsum_plus l f g : lsum l (fun t => Cplus (f t) (g t)) = Cplus (lsum l f) (lsum l g).
Proof. induction l as [|t l IH]; unfold lsum in *; cbn [map fold_right]; [ring|]. rewrite IH. ring. Qed.
Lemma lsum_mul l a f : lsum l (fun t => Cmult a (f t)) = Cmult a (lsum l f).
Proof. induction l as [|t l IH]; unfold lsum in *; cbn [map fold_right]; [ring|]. rewrite IH. ring. Qed.
Lemma lsum_swap l l' f : lsum l (fun t => lsum l' (fun k => f t k)) = lsum l' (fun k => lsum l (fun t => f t k)).
Proof.
  induction l as [|t l IH].
  - symmetry. exact (lsum_0 l').
  - transitivity (Cplus (lsum l' (fun k => f t k)) (lsum l (fun t => lsum l' (fun k => f t k)))); [reflexivity|].
    rewrite IH, <- lsum_plus. reflexivity.
Qed.
Lemma lsum_conj l f : Cconj (lsum l f) = lsum l (fun t => Cconj (f t)).
Proof.
  induction l as [|t l IH]; unfold lsum in *; cbn [map fold_right]; [apply injective_projections; cbn [fst snd Cconj RtoC]; lra|].
  rewrite <- IH. unfold Cconj, Cplus. cbn [fst snd]. f_equal; lra.
Qed.
Lemma csum_squares n f : SpecRemote.csum n (fun t => Cmult (f t) (Cconj (f t))) = RtoC 0 -> forall t, t < n -> f t = RtoC 0.
Proof.
  rewrite csum_lsum. intros H t Ht. assert (G : forall l, (0 <= fst (lsum l (fun t => Cmult (f t) (Cconj (f t)))))%R /\
    (fst (lsum l (fun t => Cmult (f t) (Cconj (f t)))) = 0%R -> forall t, In t l -> f t = RtoC 0)).
  { clear. induction l as [|t l (P & IH)]; [split; [simpl; lra|intros _ t []]|]. unfold lsum in *. cbn [map fold_right].
    set (S := fold_right Cplus (RtoC 0) _) in *. destruct (f t) as [a b] eqn:E. unfold Cplus, Cmult, Cconj. cbn [fst snd].
    split; [nra|]. intros H0 u [<-|Hu]; [|apply IH; [nra|exact Hu]]. rewrite E. unfold RtoC. f_equal; nra. }
  destruct (G (seq 0 n)) as (_ & H0). apply H0; [rewrite H; reflexivity|]. apply in_seq. lia.
Qed.

(** ** Predictions of the magnetic channels *)
Section Seen.
Variables (coeffs : list (list C)) (n : nat) (bs rs : list nat) (T : list (list C)).
Hypothesis (HT : forall j t, j < length bs -> t < n -> noise coeffs bs rs T j t = RtoC 0).
Lemma predicted j t : j < length bs -> t < n -> channel coeffs bs j t = combination coeffs (fun k => nth k (nth j T []) (RtoC 0)) rs t.
Proof.
  intros Hj Ht. pose proof (HT j t Hj Ht) as H. unfold noise in H.
  match goal with H : Cminus ?a ?b = _ |- _ => transitivity (Cplus (Cminus a b) b); [ring|rewrite H; ring] end.
Qed.
Lemma predicted_combination v t : t < n ->
  combination coeffs v bs t = combination coeffs (fun k => SpecRemote.csum (length bs) (fun j => Cmult (v j) (nth k (nth j T []) (RtoC 0)))) rs t.
Proof.
  intros Ht. unfold combination at 1.
  rewrite (csum_same (length bs) _ (fun j => lsum (seq 0 (length rs)) (fun k => Cmult (Cmult (v j) (nth k (nth j T []) (RtoC 0))) (channel coeffs rs k t)))).
  - rewrite csum_lsum, lsum_swap. unfold combination. rewrite csum_lsum. unfold lsum at 1 3. f_equal. apply map_ext. intros k.
    rewrite csum_lsum. rewrite Cmult_comm, <- lsum_mul. unfold lsum. f_equal. apply map_ext. intros j. ring.
  - intros j Hj. rewrite (predicted j t Hj Ht). unfold combination. rewrite csum_lsum, <- lsum_mul. unfold lsum. f_equal. apply map_ext. intros k. ring.
Qed.
Lemma predicted_sees : separate coeffs n bs -> sees coeffs n rs bs.
Proof.
  intros Sb v Hv. apply Sb. apply csum_squares.
  rewrite (csum_same n _ (fun t => lsum (seq 0 (length rs)) (fun k => Cmult (Cconj (SpecRemote.csum (length bs) (fun j => Cmult (v j) (nth k (nth j T []) (RtoC 0)))))
     (Cmult (combination coeffs v bs t) (Cconj (channel coeffs rs k t)))))).
  - rewrite csum_lsum, lsum_swap. transitivity (lsum (seq 0 (length rs)) (fun _ => RtoC 0)); [|apply lsum_0].
    unfold lsum at 1 3. f_equal. apply map_ext_in. intros k Hk. apply in_seq in Hk. rewrite lsum_mul.
    change (lsum (seq 0 n) _) with (correlation coeffs n (combination coeffs v bs) rs k). rewrite Hv by lia. ring.
  - intros t Ht. rewrite (predicted_combination v t Ht) at 2. unfold combination at 2. rewrite csum_lsum, lsum_conj.
    rewrite <- lsum_mul. unfold lsum. f_equal. apply map_ext. intros k. rewrite conj_mul. ring.
Qed.
End Seen.

Lemma no_noise_remote coeffs n es bs rs z : table es bs z -> (forall i t, i < length es -> t < n -> noise coeffs es bs z i t = RtoC 0) -> related coeffs n es bs rs z.
Proof.
  intros Ht H. split; [exact Ht|]. intros i Hi k Hk. unfold correlation. apply csum_zero. intros t Hlt. rewrite (H i t Hi Hlt). ring.
Qed.
Lemma no_misfit_remote coeffs n es bs rs z T g k i j : (forall t, t < n -> noise coeffs es bs z i t = RtoC 0) ->
  (forall j t, j < length bs -> t < n -> noise coeffs bs rs T j t = RtoC 0) -> error_of coeffs n es bs rs z (Some T) g k i j = 0%R.
Proof.
  intros H HT. unfold error_of, total_misfit. rewrite rsum_zero.
  - rewrite sqrt_0. unfold Rdiv. rewrite !Rmult_0_l. reflexivity.
  - intros t Ht. replace (misfit coeffs es bs rs z (Some T) i t) with (noise coeffs es bs z i t); [rewrite (H t Ht), Cmod_0; lra|].
    unfold noise, misfit, combination at 1. f_equal. apply csum_same. intros j' Hj. rewrite (predicted coeffs n bs rs T HT j' t Hj Ht). reflexivity.
Qed.

Theorem whole_no_noise_remote fo a (kone : calibration) (X : recordings) l_freq (z T : R -> list (list C)) es bs rs r :
  reach kone X -> least_squares a -> ia_keep a = true -> t_get (ss_tags X) (ia_elec a) = Ok es -> t_get (ss_tags X) (ia_mag a) = Ok bs ->
  remote_name a = Some r -> t_get (ss_tags X) r = Ok rs ->
  (forall f, In f l_freq -> exists coeffs w n, coefficients fo X f = Ok (coeffs, w) /\ length bs < n /\
     recorded coeffs n (es ++ bs ++ rs) /\ separate coeffs n bs /\ separate coeffs n rs /\ table es bs (z f) /\ table bs rs (T f) /\
     (forall i t, i < length es -> t < n -> noise coeffs es bs (z f) i t = RtoC 0) /\
     (forall j t, j < length bs -> t < n -> noise coeffs bs rs (T f) j t = RtoC 0)) ->
  exists out, whole_impedance fo a X l_freq = Ok out /\ length out = length l_freq /\
    forall m f x, nth_error l_freq m = Some f -> nth_error out m = Some x -> ir_z listU x = Values (z f) /\ ir_T listU x = Values (T f) /\
      exists err, ir_err listU x = Values err /\ forall i j, i < length es -> j < length bs -> nth_error (nth i err []) j = Some (Fin 0%R).
Proof.
  intros Hr Hls Hk He Hb Hrn Htr Hf.
  pose proof (tag_sizes RA_ord kone X _ _ Hr He) as Ne. pose proof (tag_sizes RA_ord kone X _ _ Hr Hb) as Nb.
  destruct (@whole_remote fo a X l_freq z es bs rs r Hls He Hb Hrn Htr Ne Nb) as (out & Eo & Lo & Ho).
  { intros f Hin. destruct (Hf f Hin) as (coeffs & w & n & Hc & Hn & Rc & Sb & Sr & Tz & TT & Nz & NT). exists coeffs, w, n.
    split; [exact Hc|]. split; [lia|]. split; [exact Rc|]. split; [exact Sr|].
    split; [exact (predicted_sees coeffs n bs rs (T f) NT Sb)|]. apply no_noise_remote; assumption. }
  exists out. split; [exact Eo|]. split; [exact Lo|]. intros m f x Hm Hx.
  destruct (Ho m f x Hm Hx) as (Hz & Hivt & HT). split; [exact Hz|].
  destruct (Hf f (nth_error_In _ _ Hm)) as (coeffs & w & n & Hc & Hn & Rc & _ & _ & _ & TT & Nz & NT).
  assert (ET : ir_T listU x = Values (T f)).
  { apply (HT coeffs w n (T f) Hc); [intros c Hin; apply Rc, in_or_app; left; exact Hin|]. apply no_noise_remote; assumption. }
  split; [exact ET|]. clear HT.
  destruct Hls as (W1 & _ & P1 & P2 & _).
  assert (Nw : ia_weights a <> []) by (rewrite W1; discriminate).
  destruct (@whole_errors fo a kone X l_freq out m f x (z f) es bs rs) as (coeffs' & w' & n' & err & T' & g & Hc' & Rc' & Herr & ET' & HT & _ & _ & Hent);
    try assumption.
  { rewrite P1; exact I. }
  { rewrite P2; exact I. }
  { rewrite Hrn. exact Htr. }
  exists err. split; [exact Herr|]. intros i j Hi Hj.
  rewrite Hc in Hc'. injection Hc' as <- <-.
  assert (En : n = n').
  { destruct es as [|c es]; [congruence|]. destruct (Rc c (or_introl eq_refl)) as (l1 & E1 & L1). destruct (Rc' c (or_introl eq_refl)) as (l2 & E2 & L2). congruence. }
  subst n'.
  destruct T' as [T'|]; [|destruct (proj1 HT eq_refl); congruence]. rewrite ET in ET'. injection ET' as <-.
  assert (Hts : nth_error (ir_ivt listU x) i = Some []) by (rewrite Hivt; apply nth_error_repeat; exact Hi).
  destruct (Hent i j [] Hi Hj Hts) as (_ & _ & v & Ev & Fv & _). rewrite Ev. f_equal.
  rewrite Fv; [|exact Hn|simpl; lia]. f_equal. apply no_misfit_remote; [|exact NT]. intros t Ht. apply Nz; assumption.
Qed.

(** ** Sinusoidal fields *)
Theorem whole_tones_remote fo a (kone : calibration) (X : recordings) f (field : nat -> nat -> C) coeffs Nws Ls shs z T es bs rs r :
  reach kone X -> least_squares a -> ia_keep a = true -> t_get (ss_tags X) (ia_elec a) = Ok es -> t_get (ss_tags X) (ia_mag a) = Ok bs ->
  remote_name a = Some r -> t_get (ss_tags X) r = Ok rs ->
  coefficients fo X f = Ok (coeffs, (Nws, Ls, shs)) -> no_leak f X (fo_window fo) Ls ->
  sinusoidal f field X (es ++ bs ++ rs) -> transferred field X es bs z -> transferred field X bs rs T -> polarised field X bs -> polarised field X rs ->
  exists x, whole_impedance fo a X [f] = Ok [x] /\ ir_z listU x = Values z /\ ir_T listU x = Values T /\
    exists err, ir_err listU x = Values err /\ forall i j, i < length es -> j < length bs -> nth_error (nth i err []) j = Some (Fin 0%R).
Proof.
  intros Hr Hls Hk He Hb Hrn Htr Hc Hp Hs (Tz & Ht) (TT & HtT) Hpolb Hpolr.
  destruct (nb_windows fo kone X f coeffs Nws Ls shs Hr Hc) as (LN & HN).
  assert (HE : forall t, t < list_sum Nws -> exists p, p <> RtoC 0 /\ forall c, In c (es ++ bs ++ rs) -> at_window coeffs c t = Cmult (field (fst (locate Nws t)) c) p).
  { intros t Hlt. destruct (tone_channel fo kone X f field coeffs Nws Ls shs Hr Hc Hp t Hlt) as (p & Np & H). exists p. split; [exact Np|].
    intros c Hin. exact (H (es ++ bs ++ rs) c Hs Hin). }
  assert (Comb : forall cs, incl cs (es ++ bs ++ rs) -> forall v t p, (forall c, In c (es ++ bs ++ rs) -> at_window coeffs c t = Cmult (field (fst (locate Nws t)) c) p) ->
     combination coeffs v cs t = Cmult (SpecRemote.csum (length cs) (fun j => Cmult (v j) (field (fst (locate Nws t)) (nth j cs 0)))) p).
  { intros cs Hcs v t p Hpt. unfold combination. rewrite <- csum_factor. apply csum_same. intros j Hj. unfold channel.
    rewrite (Hpt _ (Hcs _ (nth_In _ _ Hj))). reflexivity. }
  assert (Ie : incl es (es ++ bs ++ rs)) by (intros c Hin; apply in_or_app; left; exact Hin).
  assert (Ib : incl bs (es ++ bs ++ rs)) by (intros c Hin; apply in_or_app; right; apply in_or_app; left; exact Hin).
  assert (Ir : incl rs (es ++ bs ++ rs)) by (intros c Hin; apply in_or_app; right; apply in_or_app; right; exact Hin).
  assert (Sep : forall cs, incl cs (es ++ bs ++ rs) -> polarised field X cs -> separate coeffs (list_sum Nws) cs).
  { intros cs Hcs Hpol v Hv. apply Hpol. intros q Hlt. destruct (nth_error Nws q) as [N|] eqn:EN; [|apply nth_error_None in EN; lia].
    destruct (locate_run Nws q N EN) as (t & Hlt' & <-); [specialize (HN q N EN); lia|].
    specialize (Hv t Hlt'). destruct (HE t Hlt') as (p & Np & Hpt). rewrite (Comb cs Hcs v t p Hpt) in Hv. exact (C_integral _ _ Hv Np). }
  assert (Quiet : forall cs ds z, incl cs (es ++ bs ++ rs) -> incl ds (es ++ bs ++ rs) ->
     (forall r i, r < length (ss_signals X) -> i < length cs -> field r (nth i cs 0) = SpecRemote.csum (length ds) (fun j => Cmult (nth j (nth i z []) (RtoC 0)) (field r (nth j ds 0)))) ->
     forall i t, i < length cs -> t < list_sum Nws -> noise coeffs cs ds z i t = RtoC 0).
  { intros cs ds y Hcs Hds Hy i t Hi Hlt. destruct (HE t Hlt) as (p & _ & Hpt). unfold noise, channel at 1. rewrite Hpt by (apply Hcs, nth_In, Hi).
    rewrite (Comb ds Hds _ t p Hpt), (Hy (fst (locate Nws t)) i) by (try exact Hi; rewrite <- LN; apply locate_lt, Hlt). ring. }
  destruct (whole_no_noise_remote fo a kone X [f] (fun _ => z) (fun _ => T) es bs rs r Hr Hls Hk He Hb Hrn Htr) as (out & Eo & Lo & Ho).
  { intros f' [<-|[]]. exists coeffs, (Nws, Ls, shs), (list_sum Nws). split; [exact Hc|].
    assert (Nb : bs <> []) by exact (tag_sizes RA_ord kone X _ _ Hr Hb).
    split.
    { pose proof (@TonesCount.independent_le (length (ss_signals X)) (length bs) (fun r j => field r (nth j bs 0)) Hpolb) as L1.
      pose proof (sum_twice Nws HN) as L2. destruct bs; [congruence|]. simpl in *. lia. }
    destruct (set_fourier_spec _ _ _ _ _ X f _ _ _ coeffs Nws Ls shs (wf_X kone X Hr) Hc) as (Lc & _ & _ & _ & Hl).
    assert (Nn : ss_signals X <> []) by (intros E; unfold coefficients in Hc; rewrite (set_fourier_empty _ _ _ _ _ X) in Hc by exact E; discriminate).
    split.
    { intros c Hin. destruct (ss_signals X) as [|s ss] eqn:ES; [congruence|].
      destruct (Hs 0 s c) as (y & k & v & Hy & _); [rewrite ES; reflexivity|exact Hin|].
      destruct (nth_error coeffs c) as [line|] eqn:El; [exists line; split; [reflexivity|apply (Hl c line El)]|].
      exfalso. apply nth_error_None in El. rewrite Lc in El. unfold nb_channels, nb_channels_of in El. rewrite ES in El.
      assert (c < length (s_data s)) by (apply nth_error_Some; congruence). lia. }
    split; [exact (Sep bs Ib Hpolb)|]. split; [exact (Sep rs Ir Hpolr)|]. split; [exact Tz|]. split; [exact TT|].
    split; [exact (Quiet es bs z Ie Ib Ht)|exact (Quiet bs rs T Ib Ir HtT)]. }
  destruct out as [|x [|x' out]]; try discriminate. exists x. split; [exact Eo|]. exact (Ho 0 f x eq_refl eq_refl).
Qed.
