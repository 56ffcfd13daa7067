(** Packing with [keep_multi_tags=False]; runs left apart by packing. *)
From Coq Require Import QArith Qcanon Lqa.
From Verif Require Import Base BaseLemmas SliceLemmas Arith OrdLaws QcLemmas TagsModel SpecTags TagsProofs
  SyncModel SetModel SpecSet SetProofs SpecSelect TrackProofs SelectProofs OrderProofs JoinProofs JoinOk
  SpecTime ExtractProofs ExtractSet ExcludeProofs SpecConsec GroupProofs SpecMerge MergeProofs MergeSet MergeRuns MergeOk ConsecProofs ConsecSet ConsecTime ConsecOk
  GlobModel InvModel SpecInv GlobProofs InvProofs PackProofs SpecPack PackAll.
Open Scope nat_scope.

Section PackGrid.
Context {V K : Type} (kone : K).
Notation sync := (sync QA V K).
Notation sigset := (@sigset QA V K).
Notation seg := (@seg QA V K).

Lemma reads_fun (t : tags) k l l' : tags_valid t -> reads t k l -> reads t k l' -> l = l'.
Proof. intros Hv H H'. apply (In_dget _ _ _ (tv_unique t Hv)) in H, H'. congruence. Qed.
Theorem pack_single_keeps (inv : list sigset) torder order Y f D F X k p g j v : (forall X, In X inv -> good X) -> pack kone false torder order inv = Ok Y ->
  unaliased torder inv -> In f order -> (D < F)%Qc ->
  (forall k, In k torder -> exists X p g, In X inv /\ records X k p g /\ g_rate g = f /\ spans D F g) ->
  In k torder -> In X inv -> records X k p g -> g_rate g = f -> spans D F g -> nth_error (g_vals g) j = Some v -> (D <= seg_time g j)%Qc -> (seg_time g j <= F)%Qc ->
  found Y k p f (seg_time g j) v.
Proof.
  intros G H U Hf Hlt HA Hk HX Hg Hr Hsp Hv L1 L2. unfold pack in H. apply bind_ok in H as (i & Hi & H).
  pose proof (split_good kone inv i torder G Hi) as S.
  assert (Keep : forall k X p g, In k torder -> In X inv -> records X k p g -> exists W, In W i /\ records W k p g).
  { intros k1 X1 p1 g1 Hk1 HX1 R1. pose proof Hi as Hi'. unfold split_single in Hi'. apply bind_ok in Hi' as (ll & M1 & M2). injection M2 as <-.
    destruct (mapM_In _ _ _ _ M1 Hk1) as (l & Hl & E). destruct (channels_keep kone inv l [k1] X1 k1 p1 g1 G E HX1 (or_introl eq_refl) R1) as (W & HW & RW).
    exists W. split; [apply in_concat; eauto|exact RW]. }
  destruct (Keep k X p g Hk HX Hg) as (W & HW & RW).
  apply (pack_keeps kone i order Y f D F W k p g j v (fun Z HZ => proj1 (S Z HZ)) H Hf Hlt); auto.
  intros X0 k1 n HX0 Hn. assert (Hk1 : In k1 torder).
  { pose proof Hi as Hi'. unfold split_single in Hi'. apply bind_ok in Hi' as (ll & M1 & M2). injection M2 as <-. apply in_concat in HX0 as (l & Hl & HX0).
    destruct (mapM_In_r _ _ _ _ M1 Hl) as (t & Ht & E). destruct (inv_channels kone inv l [t] G E X0 HX0) as (X1 & HX1 & (cs & _ & Hcs & _ & HS & _) & _).
    apply HS in Hn as (lk & Hlk & _ & Hin).
    destruct lk as [|c lk].
    - exfalso. exact (u_full torder inv U X1 k1 HX1 Hlk).
    - destruct (proj1 (Hcs c) (Hin c (or_introl eq_refl))) as (t' & lt & [<-|[]] & Hlt' & _).
      rewrite (u_alone torder inv U X1 k1 (c :: lk) t lt HX1 Ht Hlt' Hlk); [exact Ht|].
      intros x Hx. destruct (proj1 (Hcs x) (Hin x Hx)) as (t2 & lt2 & [<-|[]] & Hlt2 & Hx2).
      rewrite (reads_fun _ _ _ _ (ws_tags X1 (gd_wf X1 (G X1 HX1))) Hlt' Hlt2). exact Hx2. }
  destruct (HA k1 Hk1) as (X1 & p1 & g1 & HX1 & R1 & Rf & Sp). destruct (Keep k1 X1 p1 g1 Hk1 HX1 R1) as (W1 & HW1 & RW1). exists W1, p1, g1. auto.
Qed.

(** ** starts of runs *)
Section Starts.
Variable Q : Qc -> Qc -> Prop.
Definition starts (X : sigset) : Prop := forall s, In s (ss_signals X) -> Q (s_rate s) (s_start s).

Lemma join_starts (l : list sigset) Z : (forall X, In X l -> good X /\ starts X) -> join_list kone l = Ok Z -> starts Z.
Proof.
  intros G H s Hs. destruct (join_list_holds QA_ord kone l Z (fun X HX => gd_wf X (proj1 (G X HX))) H) as (_ & HH & _).
  destruct (holds_run _ Z s HH Hs) as (t & s0 & Hin & HR). apply in_set_runs in Hin as (X & HX & -> & Hs'). destruct HR as (-> & -> & _). apply (G X HX), Hs'.
Qed.
Lemma merge_starts_from (seqs : list sigset) Y : (forall X, In X seqs -> good X /\ starts X) -> seqs <> [] -> merge_all kone seqs = Ok Y -> starts Y.
Proof.
  intros G Hne H s Hs. assert (Hf : fine seqs) by (intros X HX; split; [apply (G X HX)|intros r Hr; apply (G X HX), Hr]).
  destruct (proj1 (merge_all_runs kone seqs Y Hf Hne H) s Hs) as (rs & D & F & C & Sp & _ & (E & Hr & _)).
  destruct Sp as [[(r & Hrin & ED) _] _]. rewrite E, <- ED, <- (Hr r Hrin). destruct (choice_In seqs rs r C Hrin) as (X & HX & HrX). apply (G X HX), HrX.
Qed.
Lemma channels_starts (inv l : list sigset) ks : (forall X, In X inv -> good X /\ starts X) -> inv_select_channels kone inv ks = Ok l ->
  forall W, In W l -> good W /\ starts W.
Proof.
  intros G H W HW. destruct (inv_channels kone inv l ks (fun X HX => proj1 (G X HX)) H W HW) as (X & HX & HR & GW & _). split; [exact GW|].
  destruct HR as (cs & _ & _ & F & _). intros s Hs. destruct (Forall2_In_r' _ _ _ _ F Hs) as (s0 & Hs0 & E). apply run_selected_shape in E as (-> & -> & _). apply (G X HX), Hs0.
Qed.
Lemma join_merge_starts (inv : list sigset) Y : (forall X, In X inv -> good X /\ starts X) -> join_merge kone inv = Ok Y -> starts Y.
Proof.
  intros G H. unfold join_merge in H. destruct inv as [|X0 inv0].
  { destruct (set_nil_good kone Y H) as (_ & E & _). intros s Hs. rewrite E in Hs. destruct Hs. }
  set (inv := X0 :: inv0) in *. apply bind_ok in H as (content & Hc & H).
  assert (C : forall Z, In Z content -> good Z /\ starts Z).
  { intros Z HZ. destruct (mapM_In_r _ _ _ _ Hc HZ) as (ks & _ & E). apply bind_ok in E as (l & E1 & E2). pose proof (channels_starts inv l ks G E1) as GL.
    split; [exact (proj1 (join_good kone l Z (fun X HX => proj1 (GL X HX)) E2))|exact (join_starts l Z GL E2)]. }
  destruct content as [|a [|b c]]; [discriminate| |].
  - injection H as <-. apply (C a). left; reflexivity.
  - apply (merge_starts_from (a :: b :: c) Y C); [discriminate|exact H].
Qed.
Lemma pack_starts (inv : list sigset) order Y : (forall X, In X inv -> good X /\ starts X) -> pack_multi kone order inv = Ok Y ->
  ss_signals Y = [] \/ exists J, good J /\ starts J /\ merge_consecutive_runs kone J = Ok Y.
Proof.
  intros G H. unfold pack_multi in H. apply bind_ok in H as (sigs & H1 & H2).
  assert (S : forall Z, In Z sigs -> good Z /\ starts Z).
  { intros Z HZ. split; [exact (proj1 (pack_sigs kone inv order sigs (fun X HX => proj1 (G X HX)) H1 Z HZ))|].
    destruct (mapM_In_r _ _ _ _ H1 HZ) as (f0 & _ & E). apply bind_ok in E as (i & E1 & E2). apply (join_merge_starts i Z); [|exact E2].
    intros W HW. split; [apply (inv_rate kone inv i f0 (fun X HX => proj1 (G X HX)) E1 W HW)|].
    apply inv_select_runs_spec in E1 as (_ & l & F & Hk). destruct (kept_In_r _ _ _ _ _ Hk HW) as (Y' & HY' & _ & ->).
    destruct (Forall2_In_r' _ _ _ _ F HY') as ([X r] & HX & E). rewrite combine_map_r in HX. apply in_map_iff in HX as (X' & E' & HX). injection E' as -> <-.
    cbn [fst snd] in E. destruct (select_rate kone X W f0 (gd_wf X (proj1 (G X HX))) E) as (_ & _ & SR). intros s Hs. apply SR in Hs as [Hs _]. apply (G X HX), Hs. }
  set (sel := filter _ sigs) in H2. assert (HS : forall Z, In Z sel -> good Z /\ starts Z) by (intros Z HZ; apply filter_In in HZ as [HZ _]; apply S, HZ).
  clearbody sel. destruct sel as [|Z0 sel']; [left; apply (set_nil_good kone Y H2)|right]. apply bind_ok in H2 as (J & H2 & H3). exists J.
  split; [exact (proj1 (join_good kone _ J (fun X HX => proj1 (HS X HX)) H2))|]. split; [exact (join_starts _ J HS H2)|exact H3].
Qed.
Lemma pack_any_starts (inv : list sigset) keep torder order Y : (forall X, In X inv -> good X /\ starts X) -> pack kone keep torder order inv = Ok Y ->
  ss_signals Y = [] \/ exists J, good J /\ starts J /\ merge_consecutive_runs kone J = Ok Y.
Proof.
  intros G H. unfold pack in H. destruct keep; [exact (pack_starts inv order Y G H)|]. apply bind_ok in H as (i & Hi & H).
  apply (pack_starts i order Y); [|exact H]. intros W HW. unfold split_single in Hi. apply bind_ok in Hi as (ll & M1 & M2). injection M2 as <-.
  apply in_concat in HW as (l & Hl & HW). destruct (mapM_In_r _ _ _ _ M1 Hl) as (t & _ & E). exact (channels_starts inv l [t] G E W HW).
Qed.
End Starts.

(** ** runs that start on the grid of their rate *)
Definition gridded (f t : Qc) : Prop := (f <= ZtoQc 10000000)%Qc /\ exists m : Z, t = (ZtoQc m / f)%Qc.

Lemma grid_gap (r r' : sync) : pos (s_rate r) -> s_rate r' = s_rate r -> gridded (s_rate r) (s_start r) -> gridded (s_rate r') (s_start r') ->
  exists m : Z, gap r r' = (ZtoQc m / s_rate r)%Qc.
Proof.
  intros P E [_ (a & Ea)] [_ (b & Eb)]. rewrite E in Eb. exists (b - a - (Z.of_nat (s_size r) - 1))%Z.
  unfold gap, last_time, sample_time. cbn [nadd ndiv nofZ QA]. rewrite Ea, Eb. rewrite !ZtoQc_sub. unfold Qcdiv. ring.
Qed.

Lemma near_one (m : Z) (f a : Qc) : (f <= ZtoQc 10000000)%Qc -> (a = ZtoQc m \/ a = - ZtoQc m)%Qc -> (0 <= a)%Qc ->
  (- (Q2Qc (1 # 100000000) * f + Q2Qc (1 # 100000) * a) <= Q2Qc 1 - ZtoQc m)%Qc -> (Q2Qc 1 - ZtoQc m <= Q2Qc (1 # 100000000) * f + Q2Qc (1 # 100000) * a)%Qc -> m = 1%Z.
Proof.
  intros Hf Ha H0 A1 A2. destruct (Z.lt_trichotomy m 1) as [L|[L|L]]; [exfalso|exact L|exfalso].
  - assert (Hm : (ZtoQc m <= ZtoQc 0)%Qc) by (apply ZtoQc_le; lia). change (ZtoQc 0) with (Q2Qc 0) in Hm. change (ZtoQc 10000000) with (Q2Qc (10000000 # 1)) in Hf.
    destruct Ha as [->| ->]; qlra'.
  - assert (Hm : (ZtoQc 2 <= ZtoQc m)%Qc) by (apply ZtoQc_le; lia). change (ZtoQc 2) with (Q2Qc 2) in Hm. change (ZtoQc 10000000) with (Q2Qc (10000000 # 1)) in Hf.
    destruct Ha as [->| ->]; qlra'.
Qed.

Lemma grid_exact (r r' : sync) : pos (s_rate r) -> gridded (s_rate r) (s_start r) -> gridded (s_rate r') (s_start r') -> follows r r' -> follows_exactly r r'.
Proof.
  intros P G1 G2 [E (b & (g & H0 & Hg & Hb) & A1 & A2)]. split; [exact E|]. destruct (grid_gap r r' P E G1 G2) as (m & Em).
  enough (m = 1%Z) as -> by (rewrite Em; unfold period; rewrite ZtoQc_1; reflexivity).
  destruct G1 as [Hf _]. set (f := s_rate r) in *. assert (Hgap : (gap r r' * f = ZtoQc m)%Qc) by (rewrite Em; apply div_mul, P).
  assert (Hper : (period r * f = Q2Qc 1)%Qc) by (unfold period; fold f; apply div_mul, P).
  assert (Pf : (0 <= f)%Qc) by (apply Qclt_le_weak, P).
  apply (near_one m f (g * f)%Qc Hf).
  - rewrite <- Hgap. destruct Hg as [->| ->]; [left; reflexivity|right; ring].
  - rewrite <- (Qcmult_0_l f). apply Qcmult_le_compat_r; assumption.
  - apply (Qcmult_le_compat_r _ _ f) in A1; [|exact Pf]. rewrite <- Hgap, <- Hper.
    replace (period r * f - gap r r' * f)%Qc with ((period r - gap r r') * f)%Qc by ring. eapply Qcle_trans; [|exact A1].
    rewrite Hb. replace (- (Q2Qc (1 # 100000000) * f + Q2Qc (1 # 100000) * (g * f)))%Qc with (- (Q2Qc (1 # 100000000) + Q2Qc (1 # 100000) * g) * f)%Qc by ring. apply Qcle_refl.
  - apply (Qcmult_le_compat_r _ _ f) in A2; [|exact Pf]. rewrite <- Hgap, <- Hper.
    replace (period r * f - gap r r' * f)%Qc with ((period r - gap r r') * f)%Qc by ring. eapply Qcle_trans; [exact A2|].
    rewrite Hb. replace (Q2Qc (1 # 100000000) * f + Q2Qc (1 # 100000) * (g * f))%Qc with ((Q2Qc (1 # 100000000) + Q2Qc (1 # 100000) * g) * f)%Qc by ring. apply Qcle_refl.
Qed.

Theorem pack_apart (inv : list sigset) keep torder order Y : (forall X, In X inv -> good X) -> (forall X, In X inv -> on_grid X) ->
  (forall X s, In X inv -> In s (ss_signals X) -> (s_rate s <= ZtoQc 10000000)%Qc) -> pack kone keep torder order inv = Ok Y ->
  forall r r', adjacent (ss_signals Y) r r' -> ~ follows r r'.
Proof.
  intros G Gr B H. destruct (pack_any_starts gridded inv keep torder order Y) as [E|(J & GJ & SJ & HJ)].
  - intros X HX. split; [apply G, HX|]. intros s Hs. split; [apply (B X s HX Hs)|apply (Gr X HX s Hs)].
  - exact H.
  - intros r r' (l1 & l2 & Er). rewrite E in Er. destruct l1; discriminate.
  - apply (mcr_regular kone J Y); [|exact HJ]. split.
    + apply GJ.
    + apply GJ.
    + intros s Hs. apply (gd_runs J GJ s Hs).
    + intros s Hs. destruct (gd_runs J GJ s Hs). lia.
    + apply good_distinct, GJ.
    + intros r r' Ha Hf. assert (In r (ss_signals J) /\ In r' (ss_signals J)) as [H1 H2].
      { destruct Ha as (l1 & l2 & ->). split; apply in_or_app; right; simpl; auto. }
      apply grid_exact; auto. apply (gd_runs J GJ r H1).
Qed.
End PackGrid.
