(** What groups of tags keep (C87). *)
From Coq Require Import QArith Qcanon.
From Verif Require Import Base BaseLemmas SliceLemmas Arith OrdLaws QcLemmas TagsModel SpecTags TagsProofs
  SyncModel SetModel SpecSet SetProofs SpecSelect SpecTime SpecConsec GroupProofs
  SpecMerge MergeProofs GlobModel InvModel SpecInv GlobProofs InvProofs PackProofs SpecPack PackAll TagGroupProofs.
Open Scope nat_scope.

Lemma places_concat (tags : list string) (ls : list (list nat)) (P : string -> list nat -> Prop) : Forall2 P tags ls ->
  forall p t q, nth_error (places tags (map (@length nat) ls)) p = Some (t, q) -> exists l c, P t l /\ nth_error l q = Some c /\ nth_error (concat ls) p = Some c.
Proof.
  intros F p t q H. assert (L : length (places tags (map (@length nat) ls)) = length (concat ls)).
  { clear H. induction F as [|t0 l tags ls _ _ IH]; [reflexivity|]. unfold places in *. cbn [map combine flat_map concat fst snd]. rewrite !app_length, map_length, seq_length, IH. reflexivity. }
  destruct (nth_error (concat ls) p) as [c|] eqn:E.
  - destruct (nth_concat_places tags ls P F p c E) as (t' & q' & l & H1 & H2 & H3). rewrite H in H1. injection H1 as <- <-. eauto.
  - apply nth_error_None in E. rewrite <- L in E. apply nth_error_None in E. congruence.
Qed.

Section Groups.
Context {V K : Type} (kone : K).
Notation sigset := (@sigset QA V K).

Lemma filter_carries (inv i : list sigset) pats X k p g : (forall X, In X inv -> good X) -> inv_filter kone inv pats = Ok i ->
  In X inv -> carried pats X k -> records X k p g -> exists W, In W i /\ records W k p g.
Proof.
  intros G H HX (l & Hl & Hc) Hg. pose proof H as H0. apply inv_filter_spec in H; [|intros Z HZ; apply (G Z HZ)|intros Z HZ; apply (G Z HZ)].
  assert (l <> []) by (apply (tv_nonempty (ss_tags X)) with k; [apply (gd_wf _ (G X HX))|exact Hl]). destruct l as [|c l]; [congruence|].
  destruct (kept_In_l _ _ _ _ X H HX) as (W & HW & HR).
  { destruct (Hc c (or_introl eq_refl)) as (t & lt & Ht & Hlt & Hin). exists t, lt, c. auto. }
  exists W. split; [exact HW|]. destruct (filter_good kone inv i pats G H0 W HW) as (GW & _).
  destruct HR as (cs & _ & Hcs & _ & HS & HT). apply records_tracks in Hg as (gs & T & Hin); [|apply (G X HX)].
  apply records_tracks; [apply GW|]. exists gs. split; [|exact Hin]. apply (HT k (length (c :: l)) p gs); [|exact T].
  apply HS. exists (c :: l). split; [exact Hl|]. split; [reflexivity|]. intros x Hx. apply Hcs. destruct (Hc x Hx) as (t & lt & Ht & Hlt & Hi). exists t, lt. auto.
Qed.
Lemma filter_carried (inv i : list sigset) pats W k n : (forall X, In X inv -> good X) -> inv_filter kone inv pats = Ok i ->
  In W i -> tag_size W k n -> exists X, In X inv /\ carried pats X k.
Proof.
  intros G H HW Hn. apply inv_filter_spec in H; [|intros Z HZ; apply (G Z HZ)|intros Z HZ; apply (G Z HZ)].
  destruct (kept_In_r _ _ _ _ W H HW) as (X & HX & _ & E).
  destruct E as (cs & _ & Hcs & _ & HS & _). exists X. split; [exact HX|]. destruct (proj1 (HS k n) Hn) as (l & Hl & _ & Hin). exists l. split; [exact Hl|].
  intros x Hx. apply Hin, Hcs in Hx. destruct Hx as (t & lt & H1 & H2 & H3). exists t, lt. auto.
Qed.

Theorem group_keeps (inv : list sigset) order name tags Y f D F : (forall X, In X inv -> good X) -> extract_group kone order inv (name, tags) = Ok Y ->
  In f order -> (D < F)%Qc ->
  (forall X0 k, In X0 inv -> carried tags X0 k -> exists X p g, In X inv /\ carried tags X k /\ records X k p g /\ g_rate g = f /\ spans D F g) ->
  exists sizes, Forall2 (fun t n => exists X, In X inv /\ tag_size X t n) tags sizes /\ tag_size Y name (list_sum sizes) /\
  forall X k p g j v, In X inv -> carried tags X k -> records X k p g -> g_rate g = f -> spans D F g ->
    nth_error (g_vals g) j = Some v -> (D <= seg_time g j)%Qc -> (seg_time g j <= F)%Qc ->
    (k <> name -> found Y k p f (seg_time g j) v) /\
    (forall P, nth_error (places tags sizes) P = Some (k, p) -> found Y name P f (seg_time g j) v).
Proof.
  intros G H Hf Hlt HA. pose proof H as H0. unfold extract_group in H. cbn [fst snd] in H. apply bind_ok in H as (i & Hi & H). apply bind_ok in H as (sig & Hs & H).
  apply bind_ok in H as (ls & Hl & H). apply bind_ok in H as (t' & Ht & [= <-]). apply mapM_Forall2 in Hl.
  pose proof (filter_good kone inv i _ G Hi) as Gi.
  destruct (pack_tags kone i order sig (fun X HX => proj1 (Gi X HX)) Hs) as [[_ E]|(R & TS & TO)].
  { exfalso. destruct tags as [|t tags]; [inversion Hl; subst; simpl in Ht; unfold t_set in Ht; apply bind_ok in Ht as (? & _ & Ht); discriminate|]. inversion Hl as [|? l ? ? El]; subst. unfold t_get in El. rewrite E in El. discriminate. }
  assert (GS : good sig).
  { destruct (pack_inv kone i order sig (fun X HX => proj1 (Gi X HX)) Hs) as [[E _]|(sigs & J & _ & HS & HJ & HY)]; [congruence|].
    destruct (join_good kone sigs J (fun Z HZ => proj1 (HS Z HZ)) HJ) as [GJ _]. exact (mcr_good kone J sig GJ HY). }
  assert (WT : tags_valid (ss_tags sig)) by apply (gd_wf _ GS).
  pose proof (valid_set _ _ _ _ WT Ht) as [WT' En]. pose proof (set_effect _ _ _ _ WT Ht) as ((l0 & E0 & El0 & _) & Eo & _).
  rewrite entries_nat in E0. assert (l0 = concat ls) by (clear - E0; revert E0; generalize (concat ls); induction l0 as [|x l IH]; intros [|y m] E; try discriminate; [reflexivity|]; injection E as E1 E; apply Nat2Z.inj in E1; subst; f_equal; auto).
  subst l0. set (Y := mkSet (ss_signals sig) t') in *. change t' with (ss_tags Y) in WT'.
  assert (RN : reads (ss_tags Y) name (concat ls)) by (apply (reads_get _ _ _ WT'); exact El0).
  assert (RO : forall k l, k <> name -> (reads (ss_tags Y) k l <-> reads (ss_tags sig) k l)).
  { intros k l Hk. rewrite <- (reads_get _ _ _ WT'), <- (reads_get _ _ _ WT). simpl. destruct (Eo k Hk) as [-> _]. reflexivity. }
  assert (TO' : forall k n, tag_size sig k n -> exists X, In X inv /\ tag_size X k n).
  { intros k n Hk. destruct (TO k n Hk) as (X & HX & Hx). apply (Gi X HX), Hx. }
  exists (map (@length nat) ls). split; [|split].
  - clear - Hl TO' WT. induction Hl as [|t l tags ls E F IH]; simpl; constructor; [|exact IH]. apply TO'. exists l. split; [apply (reads_get _ _ _ WT), E|reflexivity].
  - exists (concat ls). split; [exact RN|]. clear. induction ls as [|l ls IH]; simpl; [reflexivity|]. rewrite app_length, IH. reflexivity.
  - intros X k p g j v HX Hc Hg Hr Hsp Hv L1 L2.
    assert (FS : found sig k p f (seg_time g j) v).
    { destruct (filter_carries inv i tags X k p g G Hi HX Hc Hg) as (W & HW & RW).
      apply (pack_keeps kone i order sig f D F W k p g j v (fun Z HZ => proj1 (Gi Z HZ)) Hs Hf Hlt); auto.
      intros X0 k1 n HX0 Hn. destruct (filter_carried inv i tags X0 k1 n G Hi HX0 Hn) as (X1 & HX1 & Hc1).
      destruct (HA X1 k1 HX1 Hc1) as (X2 & p2 & g2 & HX2 & Hc2 & R2 & Rf & Sp). destruct (filter_carries inv i tags X2 k1 p2 g2 G Hi HX2 Hc2 R2) as (W1 & HW1 & RW1).
      exists W1, p2, g2. auto. }
    destruct FS as (g' & j' & n & (s & Hs' & l & c & Hlk & Hp & Hseg) & Q). split.
    + intros Hk. exists g', j', n. split; [|exact Q]. exists s. split; [exact Hs'|]. exists l, c. split; [apply (RO k l Hk), Hlk|]. auto.
    + intros P HP. destruct (places_concat tags ls _ Hl P k p HP) as (l2 & c2 & Hl2 & Hp2 & HP2). apply (reads_get _ _ _ WT) in Hl2.
      assert (l2 = l) by (apply (reads_get _ _ _ WT) in Hl2, Hlk; congruence). subst l2. rewrite Hp in Hp2. injection Hp2 as <-.
      exists g', j', n. split; [|exact Q]. exists s. split; [exact Hs'|]. exists (concat ls), c. auto.
Qed.

Theorem groups_keep (rorder : list sigset -> list (num QA)) (inv : list sigset) groups out : (forall X, In X inv -> good X) ->
  (forall l X s, In X l -> In s (ss_signals X) -> In (s_rate s) (rorder l)) ->
  extract_groups kone rorder inv groups = Ok out -> Forall2 (fun gr Y => forall f D F, (D < F)%Qc ->
  (forall X0 k, In X0 inv -> carried (snd gr) X0 k -> exists X p g, In X inv /\ carried (snd gr) X k /\ records X k p g /\ g_rate g = f /\ spans D F g) ->
  exists sizes, Forall2 (fun t n => exists X, In X inv /\ tag_size X t n) (snd gr) sizes /\ tag_size Y (fst gr) (list_sum sizes) /\
  forall X k p g j v, In X inv -> carried (snd gr) X k -> records X k p g -> g_rate g = f -> spans D F g ->
    nth_error (g_vals g) j = Some v -> (D <= seg_time g j)%Qc -> (seg_time g j <= F)%Qc ->
    (k <> fst gr -> found Y k p f (seg_time g j) v) /\
    (forall P, nth_error (places (snd gr) sizes) P = Some (k, p) -> found Y (fst gr) P f (seg_time g j) v)) groups out.
Proof.
  intros G HO H. unfold extract_groups in H. apply mapM_Forall2 in H. eapply Forall2_impl; [|exact H]. intros [name tags] Y HY f D F Hlt HA. cbn [fst snd] in *.
  apply bind_ok in HY as (i & Hi & HY). pose proof HY as HY'.
  destruct (group_spec kone inv _ name tags Y G HY') as (_ & _ & (sizes & S1 & S2 & S3) & _).
  apply (group_keeps inv (rorder i) name tags Y f D F G HY); [|exact Hlt|exact HA].
  (* the rate [f] is one of the rates of the filtered members *)
  unfold extract_group in HY'. cbn [fst snd] in HY'. rewrite Hi in HY'. cbn [bind] in HY'. apply bind_ok in HY' as (sig & Hs & HY'). apply bind_ok in HY' as (ls & Hl & HY').
  pose proof (filter_good kone inv i _ G Hi) as Gi.
  assert (HW : exists W k n, In W i /\ tag_size W k n).
  { destruct (pack_tags kone i (rorder i) sig (fun X HX => proj1 (Gi X HX)) Hs) as [[_ E]|(R & TS & TO)].
    - exfalso. apply mapM_Forall2 in Hl. destruct tags as [|t tags]; [inversion Hl; subst; simpl in HY'; apply bind_ok in HY' as (? & HY' & _); unfold t_set in HY'; apply bind_ok in HY' as (? & _ & HY'); discriminate|].
      inversion Hl as [|? l ? ? El]; subst. unfold t_get in El. rewrite E in El. discriminate.
    - apply mapM_Forall2 in Hl. destruct tags as [|t tags].
      { exfalso. inversion Hl; subst. simpl in HY'. apply bind_ok in HY' as (? & HY' & _). unfold t_set in HY'. apply bind_ok in HY' as (? & _ & HY'). discriminate. }
      inversion Hl as [|? l ? ? El]; subst. unfold t_get in El. destruct (dget t (t_dict (ss_tags sig))) as [l2|] eqn:E; [|discriminate].
      destruct (TO t (length l2)) as (X & HX & Hx); [exists l2; split; [apply dget_In, E|reflexivity]|]. exists X, t, (length l2). auto. }
  destruct HW as (W & k & n & HW & Hn). destruct (filter_carried inv i tags W k n G Hi HW Hn) as (X0 & HX0 & Hc0).
  destruct (HA X0 k HX0 Hc0) as (X & p & g & HX & Hc & Hg & Hr & _). destruct (filter_carries inv i tags X k p g G Hi HX Hc Hg) as (W' & HW' & (s & Hs' & l & c & _ & _ & (_ & _ & Er & _))).
  rewrite <- Hr, Er. eapply HO; eauto.
Qed.
End Groups.
