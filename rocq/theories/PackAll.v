(** Packing keeps whatever all the tags have in common. *)
From Coq Require Import QArith Qcanon Lqa.
From Verif Require Import Base BaseLemmas SliceLemmas Arith OrdLaws QcLemmas TagsModel SpecTags TagsProofs
  SyncModel SetModel SpecSet SetProofs SpecSelect TrackProofs SelectProofs OrderProofs JoinProofs JoinOk
  SpecTime ExtractProofs ExtractSet ExcludeProofs SpecConsec GroupProofs SpecMerge MergeProofs MergeSet MergeRuns MergeOk ConsecProofs ConsecSet ConsecTime ConsecOk
  GlobModel InvModel SpecInv GlobProofs InvProofs PackProofs SpecPack.
Open Scope nat_scope.

Section PackAll.
Context {V K : Type} (kone : K).
Notation sync := (sync QA V K).
Notation sigset := (@sigset QA V K).
Notation seg := (@seg QA V K).

(** ** groups of tags *)
Lemma bools_eqb_iff a b : bools_eqb a b = true <-> a = b.
Proof. unfold bools_eqb. destruct (list_eq_dec bool_dec a b); split; congruence. Qed.
Lemma tag_groups_In (inv : list sigset) ks : In ks (tag_groups inv) <->
  exists t, In t (inv_tags inv) /\ Permutation (filter (fun u => bools_eqb (carriers inv u) (carriers inv t)) (inv_tags inv)) ks /\ ks = stable_sort str_ltb (filter (fun u => bools_eqb (carriers inv u) (carriers inv t)) (inv_tags inv)).
Proof.
  unfold tag_groups. rewrite sort_In. rewrite in_map_iff. split.
  - intros (g & <- & Hg). apply in_map_iff in Hg as (c & <- & Hc). rewrite (In_dedup _ bools_eqb_iff) in Hc. apply in_map_iff in Hc as (t & <- & Ht).
    exists t. split; [exact Ht|]. split; [apply sort_perm|reflexivity].
  - intros (t & Ht & _ & ->). eexists. split; [reflexivity|]. apply in_map_iff. exists (carriers inv t). split; [reflexivity|].
    rewrite (In_dedup _ bools_eqb_iff). apply in_map, Ht.
Qed.
Lemma group_of (inv : list sigset) k : In k (inv_tags inv) -> exists ks, In ks (tag_groups inv) /\ In k ks.
Proof.
  intros H. eexists. split; [apply tag_groups_In; exists k; split; [exact H|]; split; [apply sort_perm|reflexivity]|].
  apply sort_In. apply filter_In. split; [exact H|]. apply bools_eqb_iff. reflexivity.
Qed.
Lemma group_member (inv : list sigset) ks : In ks (tag_groups inv) -> exists k, In k ks /\ In k (inv_tags inv).
Proof.
  intros H. apply tag_groups_In in H as (t & Ht & _ & ->). exists t. split; [|exact Ht]. apply sort_In, filter_In. split; [exact Ht|].
  apply bools_eqb_iff. reflexivity.
Qed.

(** ** records kept by each step *)
Lemma rate_keeps (inv inv' : list sigset) f0 X k p g : (forall X, In X inv -> good X) -> inv_select_runs kone inv (map (rate_mask f0) inv) = Ok inv' ->
  In X inv -> records X k p g -> g_rate g = f0 -> exists X', In X' inv' /\ records X' k p g.
Proof.
  intros G H HX (s & Hs & l & c & Hl & Hp & Hg) Hr. apply inv_select_runs_spec in H as (_ & L & F & Hk).
  assert (HXr : In (X, rate_mask f0 X) (combine inv (map (rate_mask f0) inv))) by (rewrite combine_map_r; apply in_map_iff; exists X; auto).
  destruct (Forall2_In_l' _ _ _ _ F HXr) as (X' & HX' & E). cbn [fst snd] in E. destruct (select_rate kone X X' f0 (gd_wf X (G X HX)) E) as (W & D & S).
  assert (Hs' : In s (ss_signals X')) by (apply S; split; [exact Hs|]; destruct Hg as (_ & _ & Hg & _); congruence).
  destruct (kept_In_l _ _ _ _ X' Hk HX') as (Y & HY & ->); [intros E0; rewrite E0 in Hs'; destruct Hs'|].
  exists Y. split; [exact HY|]. exists s. split; [exact Hs'|]. exists l, c. unfold reads in *. rewrite D. auto.
Qed.

Lemma channels_keep (inv l : list sigset) ks X k p g : (forall X, In X inv -> good X) -> inv_select_channels kone inv ks = Ok l ->
  In X inv -> In k ks -> records X k p g -> exists W, In W l /\ records W k p g.
Proof.
  intros G H HX Hk Hg. pose proof H as H0. apply inv_select_channels_spec in H; [|intros Z HZ; apply (G Z HZ)|intros Z HZ; apply (G Z HZ)].
  pose proof Hg as (s & Hs & lc & c & Hl & Hp & _).
  destruct (kept_In_l _ _ _ _ X H HX) as (W & HW & HR).
  { exists k, lc, c. split; [exact Hk|]. split; [exact Hl|]. eapply nth_error_In; eauto. }
  exists W. split; [exact HW|]. destruct (inv_channels kone inv l ks G H0 W HW) as (_ & _ & _ & GW & _).
  destruct HR as (cs & _ & Hcs & _ & HS & HT). apply records_tracks in Hg as (gs & T & Hin); [|apply (G X HX)].
  apply records_tracks; [apply GW|]. exists gs. split; [|exact Hin]. apply (HT k (length lc) p gs); [|exact T].
  apply HS. exists lc. split; [exact Hl|]. split; [reflexivity|]. intros i Hi. apply Hcs. exists k, lc. auto.
Qed.

Lemma join_keeps (l : list sigset) Z W k p g : (forall X, In X l -> good X) -> join_list kone l = Ok Z -> In W l -> records W k p g -> records Z k p g.
Proof. intros G H HW Hg. apply (join_list_records QA_ord kone l Z (fun X HX => gd_wf X (G X HX)) H). eauto. Qed.

(** ** runs covering a window *)
Lemma seg_last (s : sync) c (g : seg) : sync_ok s -> is_seg s c g -> seg_time g (length (g_vals g) - 1) = last_time s \/ s_size s = 0.
Proof.
  intros Ok (Gv & _ & Gr & Gs). rewrite (so_size s Ok (g_vals g)) by (eapply nth_error_In; eauto).
  destruct (s_size s) as [|n] eqn:E; [right; reflexivity|left]. unfold seg_time, last_time, sample_time. cbn [nadd ndiv nofZ QA].
  rewrite Gr, Gs, E. replace (Z.of_nat (S n) - 1)%Z with (Z.of_nat (S n - 1)) by lia. reflexivity.
Qed.
Definition over (f D F : Qc) (r : sync) : Prop := s_rate r = f /\ (s_start r <= D)%Qc /\ (F <= last_time r)%Qc.
Lemma spans_over (X : sigset) s k p g f D F : good X -> In s (ss_signals X) -> reads_seg (ss_tags X) s k p g -> g_rate g = f -> spans D F g -> over f D F s.
Proof.
  intros G Hs (l & c & Hl & Hp & Hg) Hr [S1 S2]. destruct (seg_last s c g (ws_sync X (gd_wf X G) s Hs) Hg) as [E|E].
  - destruct Hg as (_ & _ & Gr & Gs). split; [congruence|]. rewrite <- Gs, <- E. auto.
  - destruct (gd_runs X G s Hs). lia.
Qed.

Lemma choose_runs (P : sync -> Prop) (seqs : list sigset) : (forall Z, In Z seqs -> exists r, In r (ss_signals Z) /\ P r) ->
  exists rs, choice seqs rs /\ forall r, In r rs -> P r.
Proof.
  induction seqs as [|Z seqs IH]; intros H; [exists []; split; [constructor|intros r []]|].
  destruct (H Z (or_introl eq_refl)) as (r & Hr & Pr). destruct IH as (rs & C & HP); [intros; apply H; right; assumption|].
  exists (r :: rs). split; [constructor; assumption|]. intros x [<-|Hx]; auto.
Qed.
Lemma choose_with (P : sync -> Prop) (seqs : list sigset) Z0 r0 : (forall Z, In Z seqs -> exists r, In r (ss_signals Z) /\ P r) ->
  In Z0 seqs -> In r0 (ss_signals Z0) -> P r0 ->
  exists rs i, choice seqs rs /\ (forall r, In r rs -> P r) /\ nth_error seqs i = Some Z0 /\ nth_error rs i = Some r0.
Proof.
  induction seqs as [|Z seqs IH]; intros H HZ Hr HP; [destruct HZ|]. destruct HZ as [<-|HZ].
  - destruct (choose_runs P seqs) as (rs & C & HQ); [intros; apply H; right; assumption|].
    exists (r0 :: rs), 0. split; [constructor; assumption|]. split; [intros x [<-|Hx]; auto|]. auto.
  - destruct (H Z (or_introl eq_refl)) as (r & Hr1 & Pr). destruct IH as (rs & i & C & HQ & H1 & H2); auto; [intros; apply H; right; assumption|].
    exists (r :: rs), (S i). split; [constructor; assumption|]. split; [intros x [<-|Hx]; auto|]. auto.
Qed.
Lemma max_exists (f : sync -> Qc) r l : exists x, In x (r :: l) /\ forall y, In y (r :: l) -> (f y <= f x)%Qc.
Proof.
  revert r. induction l as [|a l IH]; intros r; [exists r; split; [left; reflexivity|intros y [<-|[]]; apply Qcle_refl]|].
  destruct (IH a) as (x & Hx & Hm). destruct (Qclt_le_dec (f x) (f r)) as [L|L].
  - exists r. split; [left; reflexivity|]. intros y [<-|Hy]; [apply Qcle_refl|]. eapply Qcle_trans; [apply Hm, Hy|apply Qclt_le_weak, L].
  - exists x. split; [right; exact Hx|]. intros y [<-|Hy]; [exact L|apply Hm, Hy].
Qed.
Lemma span_exists (rs : list sync) : rs <> [] -> exists D F, span rs D F.
Proof.
  destruct rs as [|r rs]; [congruence|intros _]. destruct (max_exists (fun s => s_start s) r rs) as (x & H1 & H2).
  destruct (max_exists (fun s => - last_time s)%Qc r rs) as (y & H3 & H4). exists (s_start x), (last_time y). split; [split; [exists x; auto|exact H2]|].
  split; [exists y; auto|]. intros z Hz. apply H4 in Hz. rewrite <- (Qcopp_involutive (last_time y)), <- (Qcopp_involutive (last_time z)). apply Qcopp_le_compat, Hz.
Qed.

(** a run of [Y] holds all the samples of [g] from [D] to [F] *)
Definition windowed (Y : sigset) (k : string) (p : nat) (f D F : Qc) (g : seg) : Prop :=
  exists g', records Y k p g' /\ g_rate g' = f /\ forall j v, nth_error (g_vals g) j = Some v -> (D <= seg_time g j)%Qc -> (seg_time g j <= F)%Qc ->
    exists m, nth_error (g_vals g') m = Some v /\ seg_time g' m = seg_time g j.
Lemma merge_window (seqs : list sigset) Y f D F Z0 r0 k p g : (forall X, In X seqs -> good X) -> merge_all kone seqs = Ok Y -> (D < F)%Qc ->
  (forall Z, In Z seqs -> exists r, In r (ss_signals Z) /\ over f D F r) -> In Z0 seqs -> In r0 (ss_signals Z0) -> over f D F r0 ->
  reads_seg (ss_tags Z0) r0 k p g -> windowed Y k p f D F g.
Proof.
  intros G H Hlt HA HZ Hr0 Ov Hg. assert (Hne : seqs <> []) by (intros ->; destruct HZ).
  assert (Hf : fine seqs) by (intros X HX; split; [apply (G X HX)|intros s Hs; apply (G X HX), Hs]).
  destruct (choose_with (over f D F) seqs Z0 r0 HA HZ Hr0 Ov) as (rs & i & C & HP & Hi & Hri).
  destruct (span_exists rs) as (D' & F' & Sp); [intros ->; destruct i; discriminate|].
  assert (HD : (D' <= D)%Qc) by (destruct Sp as [[(r & Hr & <-) _] _]; apply (HP r Hr)).
  assert (HF : (F <= F')%Qc) by (destruct Sp as [_ [(r & Hr & <-) _]]; apply (HP r Hr)).
  assert (Hlt' : (D' < F')%Qc) by (apply Qcle_lt_trans with D; [exact HD|]; apply Qclt_le_trans with F; assumption).
  destruct (proj2 (merge_all_runs kone seqs Y Hf Hne H) rs D' F' C Sp Hlt') as (a & s & Ha & Hcp & _).
  { intros r r' Hr Hr'. destruct (HP r Hr) as [-> _], (HP r' Hr') as [-> _]. reflexivity. }
  destruct Hcp as (_ & Hrate & _ & _ & Hcp). destruct (Hcp i Z0 r0 k p g Hi Hri Hg) as (g' & Hg' & Rr & _ & E).
  exists g'. split; [exists s; split; [eapply nth_error_In; eauto|exact Hg']|].
  split. { destruct Hg as (l & c & _ & _ & _ & _ & Gr & _). rewrite Rr, Gr. apply Ov. }
  intros j v Hv L1 L2. assert (Hin : In (seg_time g j, v) (seg_samples g')).
  { rewrite E. apply filter_In. split; [apply (nth_error_In _ j); rewrite seg_samples_nth, Hv; reflexivity|].
    apply within_iff. split; [apply Qcle_trans with D|apply Qcle_trans with F]; assumption. }
  apply In_nth_error in Hin as [m Hm]. rewrite seg_samples_nth in Hm. destruct (nth_error (g_vals g') m) as [v'|] eqn:Ev; [|discriminate].
  cbn [option_map] in Hm. exists m. split; congruence.
Qed.

(** ** joining the carriers of each group, then merging *)
Lemma join_merge_window (inv : list sigset) Y f D F X k p g : (forall X, In X inv -> good X) -> join_merge kone inv = Ok Y -> (D < F)%Qc ->
  (forall k, In k (inv_tags inv) -> exists X p g, In X inv /\ records X k p g /\ g_rate g = f /\ spans D F g) ->
  In X inv -> records X k p g -> g_rate g = f -> spans D F g ->
  windowed Y k p f D F g.
Proof.
  intros G H Hlt HA HX Hg Hr Hsp. unfold join_merge in H. destruct inv as [|X0 inv0]; [destruct HX|].
  set (inv := X0 :: inv0) in *. apply bind_ok in H as (content & Hc & H).
  assert (C : forall Z, In Z content -> good Z /\ exists r, In r (ss_signals Z) /\ over f D F r).
  { intros Z HZ. destruct (mapM_In_r _ _ _ _ Hc HZ) as (ks & Hks & E). apply bind_ok in E as (l & E1 & E2).
    assert (Gl : forall X, In X l -> good X) by (intros W HW; destruct (inv_channels kone inv l ks G E1 W HW) as (_ & _ & _ & GX & _); exact GX).
    destruct (join_good kone l Z Gl E2) as [GZ _]. split; [exact GZ|]. destruct (group_member inv ks Hks) as (k1 & K1 & K2).
    destruct (HA k1 K2) as (X1 & p1 & g1 & HX1 & R1 & Rf & Sp). destruct (channels_keep inv l ks X1 k1 p1 g1 G E1 HX1 K1 R1) as (W & HW & RW).
    destruct (join_keeps l Z W k1 p1 g1 Gl E2 HW RW) as (r & Hr1 & Hg1). exists r. split; [exact Hr1|]. eapply spans_over; eauto. }
  assert (Hk : In k (inv_tags inv)) by (apply inv_tags_In; destruct Hg as (s & _ & l & c & Hl & _); eauto).
  destruct (group_of inv k Hk) as (ks & Hks & Kin). destruct (mapM_In _ _ _ _ Hc Hks) as (Z & HZ & E). apply bind_ok in E as (l & E1 & E2).
  assert (Gl : forall X, In X l -> good X) by (intros W HW; destruct (inv_channels kone inv l ks G E1 W HW) as (_ & _ & _ & GX & _); exact GX).
  destruct (channels_keep inv l ks X k p g G E1 HX Kin Hg) as (W & HW & RW).
  pose proof (join_keeps l Z W k p g Gl E2 HW RW) as RZ. destruct RZ as (r0 & Hr0 & Hg0).
  assert (Ov : over f D F r0) by (exact (spans_over Z r0 k p g f D F (proj1 (C Z HZ)) Hr0 Hg0 Hr Hsp)).
  destruct content as [|a [|b c]]; [discriminate| |].
  - injection H as <-. destruct HZ as [<-|[]]. exists g. split; [exists r0; auto|]. split; [exact Hr|]. intros j v Hv _ _. exists j. auto.
  - apply (merge_window (a :: b :: c) Y f D F Z r0 k p g); auto.
    + intros X1 HX1. apply (C X1 HX1).
    + intros Z1 HZ1. apply (C Z1 HZ1).
Qed.

Lemma join_merge_keeps (inv : list sigset) Y f D F X k p g j v : (forall X, In X inv -> good X) -> join_merge kone inv = Ok Y -> (D < F)%Qc ->
  (forall k, In k (inv_tags inv) -> exists X p g, In X inv /\ records X k p g /\ g_rate g = f /\ spans D F g) ->
  In X inv -> records X k p g -> g_rate g = f -> spans D F g -> nth_error (g_vals g) j = Some v -> (D <= seg_time g j)%Qc -> (seg_time g j <= F)%Qc ->
  sampled Y k p f (seg_time g j) v.
Proof.
  intros G H Hlt HA HX Hg Hr Hsp Hv L1 L2. destruct (join_merge_window inv Y f D F X k p g G H Hlt HA HX Hg Hr Hsp) as (g' & R & Rf & W).
  destruct (W j v Hv L1 L2) as (m & H1 & H2). exists g', m. auto.
Qed.

Lemma join_merge_tags (inv : list sigset) Y k X n : (forall X, In X inv -> good X) -> join_merge kone inv = Ok Y -> In X inv -> tag_size X k (S n) -> tag_size Y k (S n).
Proof.
  intros G H HX (lc & Hl & En). unfold join_merge in H. destruct inv as [|X0 inv0]; [destruct HX|]. set (inv := X0 :: inv0) in *. apply bind_ok in H as (content & Hc & H).
  assert (Hk : In k (inv_tags inv)) by (apply inv_tags_In; eauto).
  destruct (group_of inv k Hk) as (ks & Hks & Kin). destruct (mapM_In _ _ _ _ Hc Hks) as (Z & HZ & E). apply bind_ok in E as (l & E1 & E2).
  assert (Gl : forall X, In X l -> good X) by (intros W HW; destruct (inv_channels kone inv l ks G E1 W HW) as (_ & _ & _ & GX & _); exact GX).
  assert (HW : exists W, In W l /\ tag_size W k (S n)).
  { pose proof E1 as E3. apply inv_select_channels_spec in E3; [|intros Z1 HZ1; apply (G Z1 HZ1)|intros Z1 HZ1; apply (G Z1 HZ1)].
    destruct (kept_In_l _ _ _ _ X E3 HX) as (W & HW & (cs & _ & Hcs & _ & HS & _)).
    { destruct lc as [|c lc]; [discriminate|]. exists k, (c :: lc), c. split; [exact Kin|]. split; [exact Hl|left; reflexivity]. }
    exists W. split; [exact HW|]. apply HS. exists lc. split; [exact Hl|]. split; [exact En|]. intros x Hx. apply Hcs. exists k, lc. auto. }
  destruct HW as (W & HW & Hn).
  assert (HnZ : tag_size Z k (S n)) by (apply (join_list_holds QA_ord kone l Z (fun X HX => gd_wf X (Gl X HX)) E2) with (X := W); [exact HW|exact Hn]).
  assert (GC : forall Z, In Z content -> wf_set Z).
  { intros Z1 HZ1. destruct (mapM_In_r _ _ _ _ Hc HZ1) as (ks1 & _ & E). apply bind_ok in E as (l1 & E3 & E4). apply (join_good kone l1 Z1); [|exact E4].
    intros W1 HW1. destruct (inv_channels kone inv l1 ks1 G E3 W1 HW1) as (_ & _ & _ & GX & _). exact GX. }
  destruct content as [|a [|b c]]; [discriminate| |].
  - injection H as <-. destruct HZ as [<-|[]]. exact HnZ.
  - apply (merge_all_tags kone (a :: b :: c) Y GC H). exists Z. auto.
Qed.
Lemma join_merge_tag (inv : list sigset) Y k X p g : (forall X, In X inv -> good X) -> join_merge kone inv = Ok Y -> In X inv -> records X k p g -> exists n, tag_size Y k n.
Proof.
  intros G H HX (s & _ & l & c & Hl & Hp & _). destruct l as [|c0 l]; [destruct p; discriminate|]. exists (S (length l)).
  apply (join_merge_tags inv Y k X (length l) G H HX). exists (c0 :: l). auto.
Qed.

Lemma join_merge_from (inv : list sigset) Y : (forall X, In X inv -> good X) -> join_merge kone inv = Ok Y ->
  (forall k n, tag_size Y k n -> exists X, In X inv /\ tag_size X k n) /\
  forall k p g' j v, records Y k p g' -> nth_error (g_vals g') j = Some v ->
  exists X g i, In X inv /\ records X k p g /\ g_rate g = g_rate g' /\ nth_error (g_vals g) i = Some v /\ seg_time g i = seg_time g' j.
Proof.
  intros G H. destruct (join_merge_good kone inv Y G H) as [_ [O1 O2]]. split; [exact O1|]. intros k p g' j v Hg Hv.
  destruct (O2 k p (g_rate g') (seg_time g' j) v) as (X & HX & g & i & H1 & H2 & H3 & H4); [exists g', j; auto|]. exists X, g, i. auto.
Qed.
Lemma join_merge_common (inv : list sigset) Y f D F X k p g j v : (forall X, In X inv -> good X) -> join_merge kone inv = Ok Y -> (D < F)%Qc -> all_there inv f D F ->
  In X inv -> records X k p g -> g_rate g = f -> spans D F g -> nth_error (g_vals g) j = Some v -> (D <= seg_time g j)%Qc -> (seg_time g j <= F)%Qc ->
  exists g' i, records Y k p g' /\ g_rate g' = f /\ nth_error (g_vals g') i = Some v /\ seg_time g' i = seg_time g j.
Proof.
  intros G H Hlt HA. apply join_merge_keeps; try assumption. intros k1 Hk1. apply inv_tags_In in Hk1 as (X1 & l1 & HX1 & Hl1).
  apply (HA X1 k1 (length l1) HX1). exists l1. auto.
Qed.

(** ** merging consecutive runs keeps every sample *)
Lemma concat_nth_fwd {B} (f : B -> list V) b1 r b2 i v : nth_error (f r) i = Some v ->
  nth_error (concat (map f (b1 ++ r :: b2))) (list_sum (map (fun x => length (f x)) b1) + i) = Some v.
Proof.
  intros H. induction b1 as [|x b1 IH]; simpl.
  - rewrite nth_error_app1; [exact H|]. eapply nth_error_Some_lt; eauto.
  - rewrite nth_error_app2 by lia. rewrite <- IH. f_equal. lia.
Qed.
Lemma mcr_keeps (X Y : sigset) k p g j v : good X -> merge_consecutive_runs kone X = Ok Y -> records X k p g -> nth_error (g_vals g) j = Some v ->
  found Y k p (g_rate g) (seg_time g j) v.
Proof.
  intros GX H (r & Hr & l & c & Hl & Hp & Hg) Hv.
  destruct (mcr_displaced kone X Y (gd_wf X GX) (fun s Hs => proj1 (gd_runs X GX s Hs)) (good_distinct X GX) H) as (bs & B & F).
  destruct (mcr_blocks kone X Y (gd_wf X GX) (good_distinct X GX) H) as (_ & _ & _ & D).
  pose proof Hr as Hr'. rewrite <- (bl_all _ _ B) in Hr'. apply in_concat in Hr' as (b & Hb & Hrb).
  destruct (Forall2_In_l' _ _ _ _ F Hb) as (s & Hs & G & Dis). pose proof G as (r0 & b0 & Eb & Hst & _ & Hrt & HL & _ & Hd).
  assert (Hin : forall x, In x b -> In x (ss_signals X)) by (intros x Hx; rewrite <- (bl_all _ _ B); apply in_concat; eauto).
  apply in_split in Hrb as Hsplit. destruct Hsplit as (b1 & b2 & E1).
  assert (WY : wf_set Y) by exact (merge_consecutive_wf kone QA_ord X Y (gd_wf X GX) H).
  assert (HlY : reads (ss_tags Y) k l) by (unfold reads in *; rewrite D; exact Hl).
  destruct (is_seg_exists s c) as [g' Hg']; [apply (ws_sync Y WY), Hs| |].
  { rewrite (ws_chan Y WY s Hs). eapply (tv_range _ (ws_tags Y WY)); [exact HlY|eapply nth_error_In; eauto]. }
  pose proof Hg as (Gv & Gc & Gr & Gs). pose proof Hg' as (Gv' & Gc' & Gr' & Gs').
  destruct (Hd c _ Gv') as (ds & Fds & Ed).
  set (ch := fun x : sync => nth c (s_data x) []).
  assert (Eds : ds = map ch b).
  { clear - Fds. induction Fds as [|x e b ds He _ IH]; [reflexivity|]. simpl. rewrite <- IH. f_equal. unfold ch. symmetry. apply nth_error_nth, He. }
  assert (Hrate : forall x, In x b -> s_rate x = g_rate g) by (intros x Hx; rewrite Gr, <- (Hrt x Hx), (Hrt r Hrb); reflexivity).
  assert (Hpos : pos (g_rate g)) by (rewrite Gr; apply (gd_runs X GX r Hr)).
  assert (Hlen : forall x, In x b -> length (ch x) = s_size x).
  { intros x Hx. destruct (Forall2_In_l' _ _ _ _ Fds Hx) as (e & _ & He). unfold ch. rewrite (nth_error_nth _ _ [] He).
    apply (so_size x (ws_sync X (gd_wf X GX) x (Hin x Hx))). eapply nth_error_In; eauto. }
  assert (Hsum : list_sum (map (fun x => length (ch x)) b1) = list_sum (map s_size b1)).
  { f_equal. apply map_ext_in. intros x Hx. apply Hlen. rewrite E1. apply in_or_app; left; exact Hx. }
  destruct (Dis b1 r b2 (Z.of_nat j) E1) as (d & Hsl & Hab).
  assert (Hbd : (d <= ZtoQc (Z.of_nat (length b1)) * drift (g_rate g))%Qc).
  { replace (Z.of_nat (length b1)) with (Z.of_nat (length (b1 ++ [r])) - 1)%Z by (rewrite app_length; simpl; lia).
    apply slack_drift; [exact Hpos|exact Hsl| |].
    - intros x Hx. apply Hrate. rewrite E1. apply in_or_app. apply in_app_or in Hx as [Hx|[->|[]]]; [left; exact Hx|right; left; reflexivity].
    - apply (chain_prefix b1 b2 r). rewrite <- E1. intros u w. apply (bl_inside _ _ B b u w Hb). }
  exists g', (list_sum (map s_size b1) + j), (length b1).
  split; [exists s; split; [exact Hs|]; exists l, c; auto|].
  split; [rewrite Gr', Gr; apply Hrt, Hrb|]. split.
  { rewrite Ed, Eds, E1, <- Hsum. apply concat_nth_fwd. unfold ch. rewrite (nth_error_nth _ _ [] Gv). exact Hv. }
  split.
  - enough (length b1 <= list_sum (map s_size b1)) by lia.
    assert (Hz : forall x, In x b1 -> 1 <= s_size x).
    { intros x Hx. enough (2 <= s_size x) by lia. apply (gd_runs X GX), Hin. rewrite E1. apply in_or_app; left; exact Hx. }
    clear - Hz. induction b1 as [|x b1 IH]; simpl; [lia|]. pose proof (Hz x (or_introl eq_refl)). specialize (IH (fun y Hy => Hz y (or_intror Hy))). lia.
  - assert (T1 : seg_time g' (list_sum (map s_size b1) + j) = sample_time s (Z.of_nat (list_sum (map s_size b1)) + Z.of_nat j)).
    { unfold seg_time, sample_time. cbn [nadd ndiv nofZ QA]. rewrite Gs', Gr', Nat2Z.inj_add. reflexivity. }
    assert (T2 : seg_time g j = sample_time r (Z.of_nat j)) by (unfold seg_time, sample_time; cbn [nadd ndiv nofZ QA]; rewrite Gs, Gr; reflexivity).
    rewrite T1, T2. destruct Hab as [A1 A2]. split; [|eapply Qcle_trans; eauto]. eapply Qcle_trans; [|exact A1].
    apply Qcopp_le_compat, Hbd.
Qed.

(** ** the whole *)
Theorem pack_keeps (inv : list sigset) order Y f D F X k p g j v : (forall X, In X inv -> good X) -> pack_multi kone order inv = Ok Y ->
  In f order -> (D < F)%Qc -> all_there inv f D F ->
  In X inv -> records X k p g -> g_rate g = f -> spans D F g -> nth_error (g_vals g) j = Some v -> (D <= seg_time g j)%Qc -> (seg_time g j <= F)%Qc ->
  found Y k p f (seg_time g j) v.
Proof.
  intros G H Hf Hlt HA HX Hg Hr Hsp Hv L1 L2. unfold pack_multi in H. apply bind_ok in H as (sigs & H1 & H2).
  pose proof (pack_sigs kone inv order sigs G H1) as S.
  destruct (mapM_In _ _ _ _ H1 Hf) as (M & HM & E). apply bind_ok in E as (i & E1 & E2).
  pose proof (inv_rate kone inv i f G E1) as IR. assert (Gi : forall X, In X i -> good X) by (intros W HW; apply (IR W HW)).
  assert (Htag : forall k, In k (inv_tags inv) -> exists X p g, In X i /\ records X k p g /\ g_rate g = f /\ spans D F g).
  { intros k1 Hk1. apply inv_tags_In in Hk1 as (X1 & l1 & HX1 & Hl1). destruct (HA X1 k1 (length l1) HX1) as (X2 & p2 & g2 & HX2 & R2 & Rf & Sp); [exists l1; auto|].
    destruct (rate_keeps inv i f X2 k1 p2 g2 G E1 HX2 R2 Rf) as (X3 & HX3 & R3). exists X3, p2, g2. auto. }
  destruct (rate_keeps inv i f X k p g G E1 HX Hg Hr) as (X' & HX' & Rg).
  assert (SM : sampled M k p f (seg_time g j) v).
  { apply (join_merge_keeps i M f D F X' k p g j v Gi E2 Hlt); auto. intros k1 Hk1. apply Htag. apply inv_tags_In in Hk1 as (X1 & l1 & HX1 & Hl1).
    destruct (IR X1 HX1) as (_ & _ & _ & [O1 _]). destruct (O1 k1 (length l1)) as (X2 & HX2 & l2 & Hl2 & _); [exists l1; auto|]. apply inv_tags_In. eauto. }
  set (sel := filter _ sigs) in H2. assert (HS : In M sel).
  { apply filter_In. split; [exact HM|]. apply andb_true_iff. split.
    - apply has_runs_b. destruct SM as (g1 & j1 & (s & Hs & _) & _). intros E0. rewrite E0 in Hs. destruct Hs.
    - apply (subsetb_incl _ string_eqb_iff). intros k1 Hk1. destruct (Htag k1 Hk1) as (X1 & p1 & g1 & HX1 & R1 & _).
      destruct (join_merge_tag i M k1 X1 p1 g1 Gi E2 HX1 R1) as (n & l1 & Hl1 & _). unfold dkeys. apply in_map_iff. exists (k1, l1). auto. }
  assert (Gs : forall Z, In Z sel -> good Z) by (intros Z HZ; apply filter_In in HZ as [HZ _]; apply (S Z HZ)).
  clearbody sel. destruct sel as [|Z0 sel']; [destruct HS|]. apply bind_ok in H2 as (J & H2 & H3).
  destruct (join_good kone (Z0 :: sel') J Gs H2) as [GJ _]. destruct SM as (g1 & j1 & R1 & Rr & Hv1 & Ht).
  pose proof (join_keeps (Z0 :: sel') J M k p g1 Gs H2 HS R1) as RJ. rewrite <- Rr, <- Ht. exact (mcr_keeps J Y k p g1 j1 v GJ H3 RJ Hv1).
Qed.

End PackAll.
