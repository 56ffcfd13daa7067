(** Estimates of a selection of channels, and values of prefilters. *)
From Verif Require Import Base BaseLemmas Arith OrdLaws TagsModel SyncModel SetModel SpecTags SpecSet SpecSelect SetProofs SelectProofs FourierModel SpecFourier FourierSet MestModel UtilsModel MassModel
  SpecSame SameProofs.
Open Scope nat_scope.

Section Values.
Context {k : Kern} (U : UK k) {V K T : Type}.
Notation A := (kA k).
Variables (tone : num A -> nat -> nat -> kE k) (cmul : kE k -> kE k -> kE k) (cdot : list (kE k) -> list V -> kE k).
Variables (calib : K -> num A -> res (option (kE k))) (cdiv : kE k -> kE k -> kE k) (Nper ov : num A) (w : window_arg (kE k)).
Variable pvalue : list (kE k) -> list (kB k) -> res T.
Notation fourier := (fun (X : @sigset A V K) f => set_fourier tone cmul cdot calib cdiv X f Nper ov w).
Notation values := (prefilter_values U fourier pvalue).

Lemma agree_sym (X Y : @sigset A V K) t : agree X Y t -> agree Y X t.
Proof. intros (H1 & H2). split; intros; symmetry; auto. Qed.

Lemma values_imp (X Y : @sigset A V K) l remote elec mag r : wf_set X -> wf_set Y -> agree X Y elec -> agree X Y mag ->
  (forall f, In f l -> calibrated calib X f /\ calibrated calib Y f) ->
  values X l remote elec mag = Ok r -> values Y l remote elec mag = Ok r.
Proof.
  intros WX WY Ae Ab Hk H. unfold prefilter_values in *. apply bind_ok in H as (l0 & Hl & E).
  match type of Hl with mapM ?g l = _ => set (gX := g) in Hl end. match goal with |- context [mapM ?g l] => set (gY := g) end.
  assert (mapM gY l = Ok l0) as ->; [|exact E]. clear E.
  revert l0 Hl. induction l as [|f l IH]; intros l0 Hl; [exact Hl|]. simpl in Hl |- *.
  apply bind_ok in Hl as (v & Hv & Hl). apply bind_ok in Hl as (l1 & Hl1 & E).
  assert (gY f = Ok v) as ->.
  { unfold gX in Hv. unfold gY. clear gX gY IH Hl1. apply bind_ok in Hv as ([coeffs W] & EX & Hv).
    pose proof (agree_get X Y _ WX WY Ae) as He. pose proof (agree_get X Y _ WX WY Ab) as Hb.
    destruct (t_get (ss_tags X) elec) as [es|x] eqn:EeX, (t_get (ss_tags Y) elec) as [es'|x'] eqn:EeY; try contradiction; [|discriminate].
    cbn [bind] in Hv.
    assert (Nes : es <> []). { apply (tv_nonempty _ (ws_tags _ WX) elec), reads_get; assumption. }
    assert (HT : Forall2 same_times (ss_signals X) (ss_signals Y)).
    { destruct He as (_ & Fe). inversion Fe as [|c c' m m' Hc Fe']; subst; [congruence|]. exact (channel_times X Y c c' WX WY Hc). }
    destruct (four_same tone cmul cdot calib cdiv X Y f Nper ov w coeffs W WX WY HT (proj2 (Hk f (or_introl eq_refl))) EX) as (coeffs' & EY). rewrite EY. cbn [bind].
    cbn [bind] in *. rewrite <- (pick_same tone cmul cdot calib cdiv Nper ov w X Y f coeffs coeffs' W es es' WX WY EX EY (proj2 He)).
    destruct (mapM (fun i => nth_res coeffs i) es) as [e|]; [|discriminate]. cbn [bind] in *.
    destruct (t_get (ss_tags X) mag) as [bs|x] eqn:EbX, (t_get (ss_tags Y) mag) as [bs'|x'] eqn:EbY; try contradiction; [|discriminate].
    cbn [bind] in *. rewrite <- (pick_same tone cmul cdot calib cdiv Nper ov w X Y f coeffs coeffs' W bs bs' WX WY EX EY (proj2 Hb)).
    unfold all_times in *. rewrite <- (windows_same X Y W HT). exact Hv. }
  cbn [bind]. rewrite (IH (fun g Hg => Hk g (or_intror Hg)) l1 Hl1). exact E.
Qed.
Theorem values_same (kone : K) (L : OrdLaws A) (X Y : @sigset A V K) l remote elec mag r : reach kone X -> reach kone Y -> agree X Y elec -> agree X Y mag ->
  (forall f, In f l -> calibrated calib X f /\ calibrated calib Y f) ->
  values X l remote elec mag = Ok r <-> values Y l remote elec mag = Ok r.
Proof.
  intros HX HY Ae Ab Hk. apply (reach_wf kone L) in HX. apply (reach_wf kone L) in HY. split; apply values_imp; try assumption; try (apply agree_sym; assumption).
  intros f Hf. destruct (Hk f Hf). split; assumption.
Qed.
End Values.

Section Select.
Context {k : Kern} (U : UK k) {V K St : Type}.
Notation A := (kA k).
Variables (tone : num A -> nat -> nat -> kE k) (cmul : kE k -> kE k -> kE k) (cdot : list (kE k) -> list V -> kE k).
Variables (calib : K -> num A -> res (option (kE k))) (cdiv : kE k -> kE k -> kE k) (Nper ov : num A) (w : window_arg (kE k)).
Notation fourier := (fun (X : @sigset A V K) f => set_fourier tone cmul cdot calib cdiv X f Nper ov w).

Lemma selected_calibrated (X Y : @sigset A V K) sel f : Forall2 (run_selected sel) (ss_signals X) (ss_signals Y) -> calibrated calib X f -> calibrated calib Y f.
Proof.
  unfold calibrated. intros H. induction H as [|s s' l l' (_ & _ & _ & _ & Hc) H IH]; intros Hk z c Hz Hin; [contradiction|].
  destruct Hz as [<-|Hz].
  - destruct (In_nth_error _ _ Hin) as (i & Hi). destruct (Forall2_nth_error_r _ _ _ _ _ Hc Hi) as (j & _ & Hj).
    apply (Hk s c (or_introl eq_refl) (nth_error_In _ _ Hj)).
  - apply (IH (fun q d Hq => Hk q d (or_intror Hq)) z c Hz Hin).
Qed.

Theorem impedance_selected (kone : K) (L : OrdLaws A) (a : @iargs k St) (X Y : @sigset A V K) c l st :
  reach kone X -> plain (ss_tags X) -> select_channels kone X c = Ok Y ->
  (forall t m i, used a t -> reads (ss_tags X) t m -> In i m -> chosen X c i) -> (forall f, In f l -> calibrated calib X f) ->
  impedance U fourier a Y l st = impedance U fourier a X l st.
Proof.
  intros HX Hp Hs Hu Hk. symmetry. pose proof (r_select_channels kone X c Y HX Hs) as HY.
  destruct (select_channels_spec kone X c Y (reach_wf kone L X HX) Hp Hs) as (sel & _ & _ & Hrun & _ & Hn & Ht).
  apply (impedance_same U tone cmul cdot calib cdiv Nper ov w kone L); try assumption.
  - intros t Hut. split.
    + intros n. rewrite Hn. split; [intros (m & R & E); exists m; split; [exact R|]; split; [exact E|]; intros i; apply (Hu t m i Hut R)|intros (m & R & E & _); exists m; auto].
    + intros p gs. split.
      * intros Q. pose proof Q as (m & i & R & P & _). apply (Ht t (length m) p gs); [|exact Q]. apply Hn. exists m. split; [exact R|]. split; [reflexivity|]. intros j; apply (Hu t m j Hut R).
      * intros Q. pose proof Q as (m & i & R & P & _). apply (Ht t (length m) p gs); [exists m; auto|exact Q].
  - intros f Hf. split; [apply Hk, Hf|exact (selected_calibrated X Y sel f Hrun (Hk f Hf))].
Qed.
End Select.
