(** Merging signal sets: runs of the result, where it raises (exact arithmetic). *)
From Coq Require Import QArith Qcanon.
From Verif Require Import Base BaseLemmas SliceLemmas Arith OrdLaws QcLemmas TagsModel SpecTags TagsProofs
  SyncModel SetModel SpecSet SetProofs SpecSelect TrackProofs SelectProofs OrderProofs JoinProofs JoinOk
  SpecTime ExtractProofs ExtractSet ExcludeProofs ExtractSync SpecMerge MergeCommon MergeProofs MergeSet.
Open Scope nat_scope.

Section MergeRuns.
Context {V K : Type} (kone : K).
Notation sync := (sync QA V K).
Notation sigset := (@sigset QA V K).
Notation seg := (@seg QA V K).

Lemma NoDup_app_inv {B} (l1 l2 : list B) : NoDup (l1 ++ l2) -> NoDup l1 /\ NoDup l2 /\ forall x, In x l1 -> ~ In x l2.
Proof.
  induction l1 as [|a l1 IH]; simpl; intros H; [split; [constructor|split; [exact H|intros x []]]|].
  inversion H as [|? ? H1 H2]; subst. destruct (IH H2) as (G1 & G2 & G3). split.
  - constructor; [intros Hin; apply H1, in_or_app; auto|exact G1].
  - split; [exact G2|]. intros x [<-|Hx]; [intros Hin; apply H1, in_or_app; auto|auto].
Qed.
Lemma NoDup_app_intro {B} (l1 l2 : list B) : NoDup l1 -> NoDup l2 -> (forall x, In x l1 -> ~ In x l2) -> NoDup (l1 ++ l2).
Proof.
  intros H1 H2 H. induction H1 as [|a l1 Ha H1 IH]; [exact H2|]. simpl. constructor.
  - rewrite in_app_iff. intros [Hin|Hin]; [exact (Ha Hin)|]. exact (H a (or_introl eq_refl) Hin).
  - apply IH. intros x Hx. apply H. right; exact Hx.
Qed.

Lemma count_iscut P (s : sync) i n : iscut P s i n -> count P s = n.
Proof.
  intros [G1 G2]. unfold count.
  assert (E : filter (fun i => P (sample_time s (Z.of_nat i))) (seq 0 (s_size s)) = seq i n).
  { replace (seq 0 (s_size s)) with (seq 0 i ++ seq i n ++ seq (i + n) (s_size s - i - n)).
    2:{ rewrite <- seq_app. rewrite <- (seq_app i). f_equal. lia. }
    assert (F : forall a m b, a + m <= s_size s -> (forall j, a <= j < a + m -> P (sample_time s (Z.of_nat j)) = b) ->
                filter (fun i => P (sample_time s (Z.of_nat i))) (seq a m) = if b then seq a m else []).
    { clear. intros a m b _. revert a. induction m as [|m IH]; intros a H; [destruct b; reflexivity|]. cbn [seq filter].
      rewrite (H a) by lia. rewrite IH by (intros; apply H; lia). destruct b; reflexivity. }
    rewrite !filter_app. rewrite (F 0 i false), (F i n true), (F (i + n) (s_size s - i - n) false); try lia.
    - simpl. apply app_nil_r.
    - intros j Hj. apply not_true_iff_false. rewrite <- G2 by lia. lia.
    - intros j Hj. apply G2; lia.
    - intros j Hj. apply not_true_iff_false. rewrite <- G2 by lia. lia. }
  rewrite E. apply seq_length.
Qed.

(** ** runs of the result *)
Lemma mone_none (D : Qc) (ls : list (list sync)) : mone kone D ls = Ok None ->
  exists rs', ls = map (fun r => [r]) rs' /\ (rs' = [] \/ exists r q, In r rs' /\ In q rs' /\ s_rate r <> s_rate q).
Proof.
  unfold mone. intros H. apply bind_ok in H as ([] & H1 & H). apply check_ok in H1.
  destruct (singles _ H1) as [rs' ->]. rewrite concat_singles in H. exists rs'. split; [reflexivity|].
  destruct rs' as [|r rs']; [left; reflexivity|right].
  destruct (dedup (neqb QA) (map s_rate (r :: rs'))) as [|rate [|rate2 rates]] eqn:E.
  - pose proof (In_dedup (neqb QA) Qceqb_eq (s_rate r) (map s_rate (r :: rs'))) as G. rewrite E in G. destruct (proj2 G (or_introl eq_refl)).
  - apply bind_ok in H as ([] & _ & H). apply bind_ok in H as (s0 & _ & H). discriminate.
  - pose proof (NoDup_dedup (neqb QA) Qceqb_eq (map s_rate (r :: rs'))) as G. rewrite E in G.
    assert (I1 : In rate (map s_rate (r :: rs'))) by (apply (In_dedup (neqb QA) Qceqb_eq); rewrite E; simpl; auto).
    assert (I2 : In rate2 (map s_rate (r :: rs'))) by (apply (In_dedup (neqb QA) Qceqb_eq); rewrite E; simpl; auto).
    apply in_map_iff in I1 as (a & <- & Ha), I2 as (b & <- & Hb). exists a, b. split; [exact Ha|]. split; [exact Hb|].
    intros Heq. inversion G as [|? ? G1 _]; subst. apply G1. left. symmetry; exact Heq.
Qed.

Lemma cutof_rate D F (r r' : sync) : cutof D F r r' -> s_rate r' = s_rate r.
Proof. intros (i & n & -> & _). reflexivity. Qed.

Lemma covers_cuts (seqs : list sigset) rs D F o : fine seqs -> choice seqs rs -> Forall (covers D F) rs ->
  merge_one (A := QA) kone seqs (D, F) = Ok o -> exists rs', Forall2 (cutof D F) rs rs' /\ mone kone D (map (fun r => [r]) rs') = Ok o.
Proof.
  intros Hf Hc Hcov H. destruct (merge_one_cuts kone seqs D F _ Hf H) as (ls & Hls & Hm).
  assert (Hs : exists rs', ls = map (fun r => [r]) rs').
  { pose proof Hm as Hm2. unfold mone in Hm2. apply bind_ok in Hm2 as ([] & H1 & _). apply check_ok in H1. apply singles, H1. }
  destruct Hs as [rs' ->]. exists rs'. split; [|exact Hm]. exact (choice_cuts seqs rs rs' D F Hf Hc Hcov Hls).
Qed.

Lemma merge_runs (seqs : list sigset) Y : fine seqs -> seqs <> [] -> merge_all kone seqs = Ok Y ->
  (forall s, In s (ss_signals Y) -> exists rs rs' D F, choice seqs rs /\ span rs D F /\ (D < F)%Qc /\ merged D F rs rs' s) /\
  (forall rs D F, choice seqs rs -> span rs D F -> (D < F)%Qc -> same_rate rs ->
     exists s rs', In s (ss_signals Y) /\ merged D F rs rs' s).
Proof.
  intros Hf Hne H. assert (W : forall X, In X seqs -> wf_set X) by (intros X HX; apply Hf, HX).
  destruct (merge_inv kone seqs Y W H) as (_ & Hr & t & d & f & outs & _ & _ & Hb & Ho & HY). rewrite HY. split.
  - intros s Hs. apply (proj1 (sort_signals_In _ _)) in Hs. apply somes_In in Hs.
    destruct (mapM_In_r _ _ _ _ Ho Hs) as ([D F] & Hin & Hm).
    destruct (common_span seqs d f D F Hf Hne Hb Hin) as (rs & Hc & _ & Hsp).
    destruct (merge_one_merged kone seqs rs D F s Hf Hc (span_covers _ _ _ Hsp) Hm) as [rs' M].
    exists rs, rs', D, F. split; [exact Hc|]. split; [exact Hsp|]. split; [|exact M].
    destruct (merged_window seqs rs rs' D F s Hf Hne Hc (span_covers _ _ _ Hsp) M) as (G1 & _ & G2 & G3).
    apply (Qclt_le_trans _ (last_time s)); [|exact G1]. rewrite <- (me_start _ _ _ _ _ M), <- (sample_0 s) at 1.
    apply time_mono_lt; [exact G3|lia].
  - intros rs D F Hc Hsp Hlt Hsr. pose proof (span_lt_In seqs d f D F rs Hf Hb Hc Hsp Hlt) as Hin.
    destruct (mapM_In _ _ _ _ Ho Hin) as (o & Hout & Hm). destruct o as [s|].
    + destruct (merge_one_merged kone seqs rs D F s Hf Hc (span_covers _ _ _ Hsp) Hm) as [rs' M].
      exists s, rs'. split; [|exact M]. apply sort_signals_In, somes_In, Hout.
    + exfalso. destruct (covers_cuts seqs rs D F None Hf Hc (span_covers _ _ _ Hsp) Hm) as (rs' & Hcut & Hmm).
      destruct (mone_none D _ Hmm) as (rs2 & E & [->|(r & q & Hr1 & Hq & Hneq)]).
      * destruct rs'; [|discriminate]. inversion Hcut; subst. inversion Hc; subst. congruence.
      * assert (rs' = rs2) as <-.
        { clear -E. revert rs2 E. induction rs' as [|a rs' IH]; intros [|b rs2] E; try discriminate; [reflexivity|].
          injection E as <- E. f_equal. apply IH, E. }
        destruct (Forall2_In_r' _ _ _ _ Hcut Hr1) as (r0 & Hr0 & C1). destruct (Forall2_In_r' _ _ _ _ Hcut Hq) as (q0 & Hq0 & C2).
        apply Hneq. rewrite (cutof_rate _ _ _ _ C1), (cutof_rate _ _ _ _ C2). apply Hsr; assumption.
Qed.

Lemma merge_reads (seqs : list sigset) Y : (forall X, In X seqs -> wf_set X) -> merge_all kone seqs = Ok Y ->
  forall k l', reads (ss_tags Y) k l' <-> exists i X l, nth_error seqs i = Some X /\ reads (ss_tags X) k l /\
    l' = map (fun j => j + list_sum (map nb_channels (firstn i seqs))) l.
Proof.
  intros W H k l'. destruct (merge_inv kone seqs Y W H) as (Hnd & _ & t & d & f & outs & Ht & Hd & _).
  unfold reads at 1. rewrite Hd. exact (merged_reads seqs _ t Hnd Ht k l').
Qed.

Lemma merged_common_part (seqs : list sigset) Y rs rs' D F s : fine seqs -> seqs <> [] -> merge_all kone seqs = Ok Y ->
  choice seqs rs -> span rs D F -> merged D F rs rs' s -> common_part seqs rs D F Y s.
Proof.
  intros Hf Hne H Hc Hsp M.
  destruct (merged_window seqs rs rs' D F s Hf Hne Hc (span_covers _ _ _ Hsp) M) as (G1 & G2 & _ & _).
  split; [apply (me_start _ _ _ _ _ M)|]. split; [|split; [exact G1|split; [exact G2|]]].
  - intros r Hr. destruct (Forall2_In_l' _ _ _ _ (me_cut _ _ _ _ _ M) Hr) as (r' & Hr' & C).
    rewrite <- (cutof_rate _ _ _ _ C). apply (me_rate _ _ _ _ _ M), Hr'.
  - intros i X r k p g HX Hr (l & c & Hl & Hp & Hg).
    destruct (merged_channels seqs rs rs' D F s i X r c g Hf Hc M HX Hr Hg) as (g' & Hg' & Hres).
    exists g'. split; [|exact Hres]. exists (map (fun j => j + list_sum (map nb_channels (firstn i seqs))) l).
    exists (c + list_sum (map nb_channels (firstn i seqs))). split; [|split; [|exact Hg']].
    + apply (merge_reads seqs Y (fun X HX => proj1 (Hf X HX)) H). exists i, X, l. auto.
    + rewrite nth_error_map, Hp. reflexivity.
Qed.

Lemma merge_positive (seqs : list sigset) Y : fine seqs -> seqs <> [] -> merge_all kone seqs = Ok Y ->
  forall s, In s (ss_signals Y) -> pos (s_rate s) /\ 2 <= s_size s.
Proof.
  intros Hf Hne H s Hs. destruct (proj1 (merge_runs seqs Y Hf Hne H) s Hs) as (rs & rs' & D & F & Hc & Hsp & _ & M).
  destruct (merged_window seqs rs rs' D F s Hf Hne Hc (span_covers _ _ _ Hsp) M) as (_ & _ & G1 & G2). auto.
Qed.

(** in the result two runs never start together *)
Lemma merge_starts (seqs : list sigset) Y : fine seqs -> seqs <> [] -> merge_all kone seqs = Ok Y ->
  forall i j s s', nth_error (ss_signals Y) i = Some s -> nth_error (ss_signals Y) j = Some s' -> s_start s = s_start s' -> i = j.
Proof.
  intros Hf Hne H.
  assert (G : forall i j s s', i < j -> nth_error (ss_signals Y) i = Some s -> nth_error (ss_signals Y) j = Some s' -> s_start s <> s_start s').
  { intros i j s s' Hij Hi Hj E. pose proof (merge_all_wf kone QA_ord seqs Y H) as W.
    pose proof (StronglySorted_nth _ _ (wf_before Y W) i j s s' Hij Hi Hj) as B. unfold before in B.
    destruct (merge_positive seqs Y Hf Hne H s (nth_error_In _ _ Hi)) as [P1 P2].
    apply (Qclt_not_le (s_start s) (last_time s)); [|rewrite E; exact B]. rewrite <- (sample_0 s) at 1. apply time_mono_lt; [exact P1|lia]. }
  intros i j s s' Hi Hj E. destruct (Nat.lt_total i j) as [L|[L|L]]; [exfalso; eapply G; eauto|exact L|exfalso; eapply (G j i); eauto].
Qed.

Theorem merge_all_runs (seqs : list sigset) Y : fine seqs -> seqs <> [] -> merge_all kone seqs = Ok Y ->
  (forall s, In s (ss_signals Y) -> exists rs D F, choice seqs rs /\ span rs D F /\ (D < F)%Qc /\ common_part seqs rs D F Y s) /\
  (forall rs D F, choice seqs rs -> span rs D F -> (D < F)%Qc -> same_rate rs ->
     exists i s, nth_error (ss_signals Y) i = Some s /\ common_part seqs rs D F Y s /\
       forall j s', nth_error (ss_signals Y) j = Some s' -> s_start s' = D -> j = i).
Proof.
  intros Hf Hne H. destruct (merge_runs seqs Y Hf Hne H) as [H1 H2]. split.
  - intros s Hs. destruct (H1 s Hs) as (rs & rs' & D & F & Hc & Hsp & Hlt & M). exists rs, D, F.
    split; [exact Hc|]. split; [exact Hsp|]. split; [exact Hlt|]. eapply merged_common_part; eauto.
  - intros rs D F Hc Hsp Hlt Hsr. destruct (H2 rs D F Hc Hsp Hlt Hsr) as (s & rs' & Hs & M).
    apply In_nth_error in Hs as [i Hi]. exists i, s. split; [exact Hi|]. split; [eapply merged_common_part; eauto|].
    intros j s' Hj E. eapply (merge_starts seqs Y Hf Hne H j i s' s); eauto. rewrite E. symmetry. apply (me_start _ _ _ _ _ M).
Qed.

(** two choices whose common parts overlap are the same *)
Lemma choice_overlap (seqs : list sigset) rs rs2 D F D2 F2 : fine seqs -> choice seqs rs -> choice seqs rs2 ->
  Forall (covers D F) rs -> Forall (covers D2 F2) rs2 -> (D < F2)%Qc -> (D2 < F)%Qc -> rs = rs2.
Proof.
  intros Hf Hc. revert rs2. induction Hc as [|X r seqs rs Hr Hc IH]; intros rs2 Hc2 C1 C2 L1 L2; inversion Hc2 as [|? r2 ? rs2' Hr2 Hc2']; subst; [reflexivity|].
  apply Forall_cons_iff in C1 as [[A1 A2] C1]. apply Forall_cons_iff in C2 as [[B1 B2] C2]. f_equal.
  - destruct (Hf X (or_introl eq_refl)) as [W _]. apply In_nth_error in Hr as [a Ha], Hr2 as [b Hb].
    destruct (Nat.lt_total a b) as [L|[->|L]]; [exfalso| congruence |exfalso].
    + pose proof (StronglySorted_nth _ _ (wf_before X W) a b r r2 L Ha Hb) as B. unfold before in B.
      apply (Qclt_not_le _ _ L2). exact (Qcle_trans _ _ _ A2 (Qcle_trans _ _ _ B B1)).
    + pose proof (StronglySorted_nth _ _ (wf_before X W) b a r2 r L Hb Ha) as B. unfold before in B.
      apply (Qclt_not_le _ _ L1). exact (Qcle_trans _ _ _ B2 (Qcle_trans _ _ _ B A1)).
  - apply IH; auto. intros Z HZ. apply Hf. right; exact HZ.
Qed.
Theorem merge_all_skips (seqs : list sigset) Y rs D F : fine seqs -> seqs <> [] -> merge_all kone seqs = Ok Y ->
  choice seqs rs -> span rs D F -> ~ same_rate rs ->
  forall s, In s (ss_signals Y) -> (last_time s <= D)%Qc \/ (F <= s_start s)%Qc.
Proof.
  intros Hf Hne H Hc Hsp Hns s Hs. destruct (proj1 (merge_runs seqs Y Hf Hne H) s Hs) as (rs2 & rs' & D2 & F2 & Hc2 & Hsp2 & Hlt & M).
  destruct (merged_window seqs rs2 rs' D2 F2 s Hf Hne Hc2 (span_covers _ _ _ Hsp2) M) as (G1 & _).
  rewrite (me_start _ _ _ _ _ M).
  destruct (Qclt_le_dec D F2) as [L1|L1]; [|left; exact (Qcle_trans _ _ _ G1 L1)].
  destruct (Qclt_le_dec D2 F) as [L2|L2]; [|right; exact L2]. exfalso. apply Hns.
  rewrite (choice_overlap seqs rs rs2 D F D2 F2 Hf Hc Hc2 (span_covers _ _ _ Hsp) (span_covers _ _ _ Hsp2) L1 L2).
  intros r q Hr Hq. destruct (Forall2_In_l' _ _ _ _ (me_cut _ _ _ _ _ M) Hr) as (r' & Hr' & Cr).
  destruct (Forall2_In_l' _ _ _ _ (me_cut _ _ _ _ _ M) Hq) as (q' & Hq' & Cq).
  rewrite <- (cutof_rate _ _ _ _ Cr), <- (cutof_rate _ _ _ _ Cq), (me_rate _ _ _ _ _ M r' Hr'), (me_rate _ _ _ _ _ M q' Hq'). reflexivity.
Qed.

(** ** what is read in the result *)
Lemma segs_exist (X : sigset) c : wf_set X -> c < t_n (ss_tags X) ->
  exists gs, Forall2 (fun s g => is_seg s c g) (ss_signals X) gs.
Proof.
  intros W Hc. pose proof (ws_sync X W) as H1. pose proof (ws_chan X W) as H2. induction (ss_signals X) as [|s l IH].
  - exists []. constructor.
  - destruct IH as [gs IH]; [intros; apply H1; right; assumption|intros; apply H2; right; assumption|].
    destruct (is_seg_exists s c) as [g Hg]; [apply H1; left; reflexivity|rewrite H2 by (left; reflexivity); exact Hc|].
    exists (g :: gs). constructor; assumption.
Qed.
Theorem merge_all_tracks (seqs : list sigset) Y k p gs' : fine seqs -> seqs <> [] -> merge_all kone seqs = Ok Y ->
  tracks Y k p gs' -> exists X gs, In X seqs /\ tracks X k p gs /\
    forall g', In g' gs' -> exists g D F, In g gs /\ restricted (within D F) g g'.
Proof.
  intros Hf Hne H (l' & c' & Hl' & Hp & Hgs). apply (merge_reads seqs Y (fun X HX => proj1 (Hf X HX)) H) in Hl' as (i & X & l & HX & Hl & ->).
  apply nth_error_map_some in Hp as (c & Hc & ->). assert (HXin : In X seqs) by (eapply nth_error_In; eauto).
  destruct (Hf X HXin) as [W P].
  destruct (segs_exist X c W) as [gs Hg]; [eapply tv_range; [apply (ws_tags X W)|exact Hl|eapply nth_error_In; eauto]|].
  exists X, gs. split; [exact HXin|]. split; [exists l, c; auto|]. intros g' Hg'.
  destruct (Forall2_In_r' _ _ _ _ Hgs Hg') as (s & Hs & Hsg).
  destruct (proj1 (merge_runs seqs Y Hf Hne H) s Hs) as (rs & rs' & D & F & Hch & Hsp & _ & M).
  destruct (Forall2_nth' _ _ _ Hch i X HX) as (r & Hr & HrX). destruct (Forall2_In_l' _ _ _ _ Hg HrX) as (g & Hgin & Hgr).
  destruct (merged_channels seqs rs rs' D F s i X r c g Hf Hch M HX Hr Hgr) as (g2 & Hg2 & Hres).
  rewrite (is_seg_inj s _ g' g2 Hsg Hg2). exists g, D, F. auto.
Qed.
Theorem merge_all_loses_nothing (seqs : list sigset) Y rs D F i X r k p g t v : fine seqs -> seqs <> [] -> merge_all kone seqs = Ok Y ->
  choice seqs rs -> span rs D F -> (D < F)%Qc -> same_rate rs ->
  nth_error seqs i = Some X -> nth_error rs i = Some r -> reads_seg (ss_tags X) r k p g ->
  In (t, v) (seg_samples g) -> (D <= t)%Qc -> (t <= F)%Qc ->
  exists s g', In s (ss_signals Y) /\ reads_seg (ss_tags Y) s k p g' /\ In (t, v) (seg_samples g').
Proof.
  intros Hf Hne H Hc Hsp Hlt Hsr HX Hr Hg Hin L1 L2. destruct (proj2 (merge_all_runs seqs Y Hf Hne H) rs D F Hc Hsp Hlt Hsr) as (a & s & Ha & Hcp & _).
  destruct Hcp as (_ & _ & _ & _ & Hcp). destruct (Hcp i X r k p g HX Hr Hg) as (g' & Hg' & _ & _ & E).
  exists s, g'. split; [eapply nth_error_In; eauto|]. split; [exact Hg'|]. rewrite E. apply filter_In. split; [exact Hin|].
  apply within_iff. auto.
Qed.

(** ** tags *)
Lemma names_disjoint (seqs : list sigset) : (forall X, In X seqs -> wf_set X) -> NoDup (names seqs) <-> disjoint_names seqs.
Proof.
  intros W. unfold names, disjoint_names. induction seqs as [|X seqs IH]; simpl.
  - split; [intros _ i j Y ? ? ? ? Hi; destruct i; discriminate|constructor].
  - assert (IH' := IH (fun Y HY => W Y (or_intror HY))). clear IH. split.
    + intros Hnd. apply NoDup_app_inv in Hnd as (H1 & H2 & H3). rewrite IH' in H2.
      assert (G : forall j Y k l l', nth_error seqs j = Some Y -> reads (ss_tags X) k l -> ~ reads (ss_tags Y) k l').
      { intros j Y k l l' HY Hl Hl'. apply (H3 k).
        - apply in_map_iff. exists (k, l). auto.
        - apply in_concat. exists (dkeys (t_dict (ss_tags Y))). split; [apply in_map_iff; exists Y; split; [reflexivity|eapply nth_error_In; eauto]|].
          apply in_map_iff. exists (k, l'). auto. }
      intros [|i] [|j] A B k l l' HA HB Hne Hl Hl'; simpl in *; try congruence.
      * injection HA as <-. eapply G; eauto.
      * injection HB as <-. eapply G; eauto.
      * eapply (H2 i j); eauto.
    + intros H. apply NoDup_app_intro.
      * apply (tv_unique _ (ws_tags X (W X (or_introl eq_refl)))).
      * apply IH'. intros i j A B k l l' HA HB Hne. apply (H (S i) (S j) A B k l l'); auto.
      * intros k Hk Hk2. apply in_map_iff in Hk as ([k1 l] & E & Hl). simpl in E; subst k1.
        apply in_concat in Hk2 as (ks & Hks & Hk2). apply in_map_iff in Hks as (B & <- & HB).
        apply in_map_iff in Hk2 as ([k2 l'] & E & Hl'). simpl in E; subst k2. apply In_nth_error in HB as [j HB].
        exact (H 0 (S j) X B k l l' eq_refl HB ltac:(lia) Hl Hl').
Qed.
End MergeRuns.
