(** Packing: where the tags and the samples of the result come from. *)
From Coq Require Import QArith Qcanon Lqa.
From Verif Require Import Base BaseLemmas SliceLemmas Arith OrdLaws QcLemmas TagsModel SpecTags TagsProofs
  SyncModel SetModel SpecSet SetProofs SpecSelect TrackProofs SelectProofs OrderProofs JoinProofs JoinOk
  SpecTime ExtractProofs ExtractSet ExcludeProofs SpecConsec GroupProofs SpecMerge MergeProofs MergeRuns MergeOk ConsecProofs ConsecSet ConsecTime ConsecOk
  GlobModel InvModel SpecInv GlobProofs InvProofs.
Open Scope nat_scope.

Section Pack.
Context {V K : Type} (kone : K).
Notation sync := (sync QA V K).
Notation sigset := (@sigset QA V K).
Notation seg := (@seg QA V K).

(** no special name; positive rates and at least two samples in every run *)
Record good (X : sigset) : Prop := {
  gd_wf : wf_set X; gd_plain : plain (ss_tags X);
  gd_runs : forall s, In s (ss_signals X) -> pos (s_rate s) /\ 2 <= s_size s }.

Definition sampled (X : sigset) (k : string) (p : nat) (r t : Qc) (v : V) : Prop :=
  exists g j, records X k p g /\ g_rate g = r /\ nth_error (g_vals g) j = Some v /\ seg_time g j = t.

Definition origin (inv : list sigset) (Y : sigset) : Prop :=
  (forall k n, tag_size Y k n -> exists X, In X inv /\ tag_size X k n) /\
  (forall k p r t v, sampled Y k p r t v -> exists X, In X inv /\ sampled X k p r t v).

Lemma origin_self inv X : In X inv -> origin inv X.
Proof. intros H. split; intros; exists X; auto. Qed.
Lemma origin_trans inv inv' Y : (forall Z, In Z inv' -> origin inv Z) -> origin inv' Y -> origin inv Y.
Proof.
  intros H [H1 H2]. split.
  - intros k n Hk. destruct (H1 k n Hk) as (Z & HZ & Hz). apply (H Z HZ), Hz.
  - intros k p r t v Hs. destruct (H2 _ _ _ _ _ Hs) as (Z & HZ & Hz). apply (H Z HZ), Hz.
Qed.

Lemma records_sampled (inv : list sigset) (Y : sigset) : (forall k p g, records Y k p g -> exists X, In X inv /\ records X k p g) ->
  forall k p r t v, sampled Y k p r t v -> exists X, In X inv /\ sampled X k p r t v.
Proof. intros H k p r t v (g & j & H1 & H2). destruct (H k p g H1) as (X & HX & Hg). exists X. split; [exact HX|]. exists g, j. auto. Qed.

(** ** runs of one rate *)
Lemma select_rate (X Y : sigset) f0 : wf_set X -> select_runs kone X (rate_mask f0 X) = Ok Y ->
  wf_set Y /\ t_dict (ss_tags Y) = t_dict (ss_tags X) /\ (forall s, In s (ss_signals Y) <-> In s (ss_signals X) /\ s_rate s = f0).
Proof.
  intros HX H. split; [exact (select_runs_wf kone QA_ord X _ Y HX H)|]. destruct (select_runs_spec kone X _ Y HX H) as (idx & runs & Hpk & Hr & HP & _ & Hd).
  split; [exact Hd|]. intros s. unfold rate_mask in Hpk. destruct Hpk as (_ & _ & Hi). split.
  - intros Hs. apply (Permutation_in _ (Permutation_sym HP)) in Hs. destruct (Forall2_In_r' _ _ _ _ Hr Hs) as (i & Hin & Hn).
    split; [eapply nth_error_In; eauto|]. apply Hi in Hin. rewrite nth_error_map, Hn in Hin. simpl in Hin. injection Hin as Hin. apply Qceqb_iff, Hin.
  - intros [Hs E]. apply In_nth_error in Hs as [i Hn]. assert (Hin : In i idx).
    { apply Hi. rewrite nth_error_map, Hn. simpl. f_equal. apply Qceqb_iff, E. }
    destruct (Forall2_In_l' _ _ _ _ Hr Hin) as (s' & Hs' & Hn'). rewrite Hn in Hn'. injection Hn' as <-. apply (Permutation_in _ HP), Hs'.
Qed.
Lemma select_rate_good (X Y : sigset) f0 : good X -> select_runs kone X (rate_mask f0 X) = Ok Y -> good Y.
Proof.
  intros [W P R] H. destruct (select_rate X Y f0 W H) as (W' & D & S). split; [exact W'| |].
  - intros k l Hl. unfold reads in Hl. rewrite D in Hl. exact (P k l Hl).
  - intros s Hs. apply S in Hs. apply R, Hs.
Qed.
Lemma select_rate_records (X Y : sigset) f0 : good X -> select_runs kone X (rate_mask f0 X) = Ok Y -> forall k p g, records Y k p g -> records X k p g.
Proof.
  intros [W P R] H k p g (s & Hs & l & c & Hl & Hc). destruct (select_rate X Y f0 W H) as (W' & D & S).
  exists s. split; [apply S, Hs|]. exists l, c. unfold reads in *. rewrite <- D. auto.
Qed.

Lemma combine_map_r {B C} (f : B -> C) l : combine l (map f l) = map (fun x => (x, f x)) l.
Proof. induction l as [|x l IH]; simpl; [reflexivity|]. rewrite IH. reflexivity. Qed.

Lemma inv_rate (inv inv' : list sigset) f0 : (forall X, In X inv -> good X) -> inv_select_runs kone inv (map (rate_mask f0) inv) = Ok inv' ->
  forall Y, In Y inv' -> ss_signals Y <> [] /\ good Y /\ (forall s, In s (ss_signals Y) -> s_rate s = f0) /\ origin inv Y.
Proof.
  intros G H Y HY. apply inv_select_runs_spec in H as (_ & l & F & Hk).
  destruct (kept_In_r _ _ _ _ _ Hk HY) as (Y' & HY' & Hne & ->). split; [exact Hne|].
  destruct (Forall2_In_r' _ _ _ _ F HY') as ([X r] & HX & E). rewrite combine_map_r in HX. apply in_map_iff in HX as (X' & E' & HX). injection E' as -> <-.
  cbn [fst snd] in E. destruct (select_rate X Y f0 (gd_wf X (G X HX)) E) as (W & D & S).
  split; [exact (select_rate_good X Y f0 (G X HX) E)|]. split; [intros s Hs; apply S, Hs|]. split.
  - intros k n (l0 & Hl & Hn). exists X. split; [exact HX|]. exists l0. split; [|exact Hn]. unfold reads in *. rewrite <- D. exact Hl.
  - apply records_sampled. intros k p g Hg. exists X. split; [exact HX|]. exact (select_rate_records X Y f0 (G X HX) E k p g Hg).
Qed.

(** ** channels *)
Lemma inv_channels_In (inv inv' : list sigset) keys Y : inv_select_channels kone inv keys = Ok inv' -> In Y inv' ->
  exists X idx, In X inv /\ get_keys X keys = Ok idx /\ select_channels kone X (SelSeq (map (fun i => CInt (Z.of_nat i)) idx)) = Ok Y.
Proof.
  intros H HY. unfold inv_select_channels in H. apply bind_ok in H as (l & H1 & H2). injection H2 as <-. apply somes_In in HY.
  destruct (mapM_In_r _ _ _ _ H1 HY) as (X & HX & E). apply bind_ok in E as (idx & E1 & E2). exists X, idx. split; [exact HX|]. split; [exact E1|].
  destruct (length idx =? 0); [discriminate|]. apply bind_ok in E2 as (Y' & E2 & E3). injection E3 as <-. exact E2.
Qed.
Lemma run_selected_shape sel (s s' : sync) : run_selected sel s s' -> s_rate s' = s_rate s /\ s_start s' = s_start s /\ s_size s' = s_size s.
Proof. intros H. unfold run_selected in H. tauto. Qed.
Lemma reduced_good sel (X Y : sigset) : good X -> wf_set Y -> reduced sel X Y -> good Y.
Proof.
  intros [W P R] W' HR. split; [exact W'|exact (reduced_plain sel X Y HR P)|]. destruct HR as (cs & _ & _ & F & _). intros s Hs.
  destruct (Forall2_In_r' _ _ _ _ F Hs) as (s0 & Hs0 & E). apply run_selected_shape in E as (-> & _ & ->). apply R, Hs0.
Qed.
Lemma inv_channels (inv inv' : list sigset) keys : (forall X, In X inv -> good X) -> inv_select_channels kone inv keys = Ok inv' ->
  forall Y, In Y inv' -> exists X, In X inv /\ reduced (fun k => In k keys) X Y /\ good Y /\ origin inv Y.
Proof.
  intros G H Y HY. destruct (inv_channels_In inv inv' keys Y H HY) as (X & idx & HX & E1 & E2).
  pose proof (G X HX) as GX. exists X. split; [exact HX|].
  assert (HR : reduced (fun k => In k keys) X Y) by (eapply (select_keys_reduced kone); [apply GX|apply GX|exact E1|exact E2]).
  assert (W : wf_set Y) by exact (select_channels_wf kone QA_ord X _ Y (gd_wf X GX) E2).
  split; [exact HR|]. split; [exact (reduced_good _ X Y GX W HR)|]. split.
  - intros k n Hn. exists X. split; [exact HX|]. exact (reduced_size _ X Y k n HR Hn).
  - apply records_sampled. intros k p g Hg. exists X. split; [exact HX|]. exact (reduced_records _ X Y k p g (gd_wf X GX) W HR Hg).
Qed.

(** ** joining and merging *)
Lemma join_good (l : list sigset) Z : (forall X, In X l -> good X) -> join_list kone l = Ok Z -> good Z /\ origin l Z.
Proof.
  intros G H. assert (W : forall X, In X l -> wf_set X) by (intros X HX; apply G, HX).
  destruct (join_list_holds QA_ord kone l Z W H) as (WZ & HH & HK).
  destruct l as [|X0 l0]; [discriminate|]. split; [split; [exact WZ| |]|split].
  - intros k ks Hk. assert (S : tag_size Z k (length ks)) by (exists ks; auto). apply (HK X0 (or_introl eq_refl)) in S as (l' & Hl' & _).
    exact (gd_plain X0 (G X0 (or_introl eq_refl)) k l' Hl').
  - intros s' Hs. destruct (holds_run _ Z s' HH Hs) as (t & s & Hin & HR). apply in_set_runs in Hin as (X & HX & -> & Hs').
    destruct HR as (-> & _ & -> & _). apply (G X HX), Hs'.
  - intros k n Hn. exists X0. split; [left; reflexivity|]. apply (HK X0 (or_introl eq_refl)), Hn.
  - apply records_sampled. intros k p g Hg. apply (join_list_records QA_ord kone _ Z W H k p g), Hg.
Qed.

Lemma seg_samples_nth (g : seg) j : nth_error (seg_samples g) j = option_map (fun v => (seg_time g j, v)) (nth_error (g_vals g) j).
Proof.
  unfold seg_samples. rewrite nth_error_map, combine_seq_nth. simpl. destruct (nth_error (g_vals g) j); reflexivity.
Qed.
Lemma restricted_sampled P (g g' : seg) j v : restricted P g g' -> nth_error (g_vals g') j = Some v ->
  exists i, nth_error (g_vals g) i = Some v /\ seg_time g i = seg_time g' j.
Proof.
  intros (_ & _ & E) H. assert (Hin : In (seg_time g' j, v) (seg_samples g')).
  { apply (nth_error_In _ j). rewrite seg_samples_nth, H. reflexivity. }
  rewrite E in Hin. apply filter_In in Hin as [Hin _]. apply In_nth_error in Hin as [i Hi]. rewrite seg_samples_nth in Hi.
  destruct (nth_error (g_vals g) i) as [v'|] eqn:Ev; [|discriminate]. cbn [option_map] in Hi. exists i. split; congruence.
Qed.
Lemma merge_good (seqs : list sigset) Y : (forall X, In X seqs -> good X) -> seqs <> [] -> merge_all kone seqs = Ok Y -> good Y /\ origin seqs Y.
Proof.
  intros G Hne H. assert (W : forall X, In X seqs -> wf_set X) by (intros X HX; apply G, HX).
  assert (Hf : fine seqs) by (intros X HX; split; [apply W, HX|intros s Hs; apply (G X HX), Hs]).
  assert (WY : wf_set Y) by exact (merge_all_wf kone QA_ord seqs Y H).
  destruct (merge_all_tags kone seqs Y W H) as [_ HT]. split; [split; [exact WY| |]|split].
  - intros k l Hl. destruct (proj1 (HT k (length l))) as (X & HX & l' & Hl' & _); [exists l; auto|]. exact (gd_plain X (G X HX) k l' Hl').
  - exact (merge_positive kone seqs Y Hf Hne H).
  - intros k n Hn. apply HT, Hn.
  - intros k p r t v (g' & j & Hg & Hr & Hv & Ht). apply (records_tracks Y k p g' WY) in Hg as (gs' & Hgs & Hg).
    destruct (merge_all_tracks kone seqs Y k p gs' Hf Hne H Hgs) as (X & gs & HX & HXt & HR). destruct (HR g' Hg) as (g & D & F & Hin & R).
    exists X. split; [exact HX|]. destruct (restricted_sampled _ g g' j v R Hv) as (i & Hi & Hti).
    exists g, i. split; [apply (records_tracks X k p g (W X HX)); eauto|]. split; [destruct R as [R _]; congruence|]. split; [exact Hi|congruence].
Qed.

Lemma set_nil_good (Y : sigset) : set_new kone (TDict []) [] = Ok Y -> good Y /\ ss_signals Y = [] /\ t_dict (ss_tags Y) = [].
Proof. intros H. injection H as <-. split; [|split; reflexivity]. split; [|intros k l []|intros s []]. apply (set_new_syncs_wf kone QA_ord (TDict []) []); [intros s []|reflexivity]. Qed.

Lemma join_merge_good (inv : list sigset) Y : (forall X, In X inv -> good X) -> join_merge kone inv = Ok Y -> good Y /\ origin inv Y.
Proof.
  intros G H. unfold join_merge in H. destruct inv as [|X0 inv0].
  { destruct (set_nil_good Y H) as (GY & E1 & E2). split; [exact GY|]. split.
    - intros k n (l & Hl & _). unfold reads in Hl. rewrite E2 in Hl. destruct Hl.
    - intros k p r t v (g & j & (s & Hs & _) & _). rewrite E1 in Hs. destruct Hs. }
  set (inv := X0 :: inv0) in *. apply bind_ok in H as (content & Hc & H).
  assert (C : forall Z, In Z content -> good Z /\ origin inv Z).
  { intros Z HZ. destruct (mapM_In_r _ _ _ _ Hc HZ) as (ks & _ & E). apply bind_ok in E as (l & E1 & E2).
    assert (Gl : forall X, In X l -> good X) by (intros X HX; destruct (inv_channels inv l ks G E1 X HX) as (_ & _ & _ & GX & _); exact GX).
    destruct (join_good l Z Gl E2) as [GZ OZ]. split; [exact GZ|]. apply (origin_trans inv l); [|exact OZ].
    intros X HX. destruct (inv_channels inv l ks G E1 X HX) as (_ & _ & _ & _ & OX). exact OX. }
  destruct content as [|a [|b c]]; [discriminate| |].
  - injection H as <-. apply C. left; reflexivity.
  - destruct (merge_good (a :: b :: c) Y) as [GY OY]; [intros X HX; apply C, HX|discriminate|exact H|].
    split; [exact GY|]. apply (origin_trans inv (a :: b :: c)); [intros Z HZ; apply C, HZ|exact OY].
Qed.

(** ** merging consecutive runs *)
Lemma good_distinct (X : sigset) : good X -> distinct_starts (ss_signals X).
Proof.
  intros [W P R]. apply FOP_of_nth. intros i j s s' Hij Hi Hj. left.
  pose proof (StronglySorted_nth _ _ (wf_before X W) i j s s' Hij Hi Hj) as B. unfold before in B. 
  destruct (R s (nth_error_In _ _ Hi)) as [P1 P2]. apply (proj2 (Qcltb_lt (s_start s) (s_start s'))).
  apply Qclt_le_trans with (last_time s : Qc); [|exact B]. rewrite <- (sample_0 s) at 1. apply time_mono_lt; [exact P1|lia].
Qed.

Lemma sum_ge (b : list sync) r : In r b -> s_size r <= list_sum (map s_size b).
Proof. induction b as [|x b IH]; intros H; [destruct H|]. simpl. destruct H as [->|H]; [lia|]. specialize (IH H). lia. Qed.
Lemma mcr_good (X Y : sigset) : good X -> merge_consecutive_runs kone X = Ok Y -> good Y.
Proof.
  intros GX H. destruct (mcr_blocks kone X Y (gd_wf X GX) (good_distinct X GX) H) as (bs & B & F & D). split.
  - exact (merge_consecutive_wf kone QA_ord X Y (gd_wf X GX) H).
  - intros k l Hl. unfold reads in Hl. rewrite D in Hl. exact (gd_plain X GX k l Hl).
  - intros s Hs. destruct (Forall2_In_r' _ _ _ _ F Hs) as (b & Hb & (r0 & b0 & E & _ & _ & Hr & _ & Hz & _)).
    assert (In r0 (ss_signals X)).
    { rewrite <- (bl_all _ _ B). apply in_concat. exists b. split; [exact Hb|]. rewrite E. left; reflexivity. }
    destruct (gd_runs X GX r0 H0) as [P1 P2]. rewrite (Hr r0) by (rewrite E; left; reflexivity). split; [exact P1|].
    rewrite Hz. apply Nat.le_trans with (s_size r0); [exact P2|]. apply sum_ge. rewrite E. left; reflexivity.
Qed.

Lemma tolerance_drift (r r' : sync) b : pos (s_rate r) -> follows r r' -> tolerance r r' b -> (b <= drift (s_rate r))%Qc /\ (0 <= b)%Qc.
Proof.
  intros Hp [_ (b' & (g' & G0 & G1 & G2) & A1 & A2)] (g & H0 & H1 & H2).
  revert A1 A2 H1 G1. set (γ := gap r r'). clearbody γ. intros A1 A2 H1 G1.
  assert (g' = g) as -> by (apply Qcle_antisym; destruct H1 as [H1|H1], G1 as [G1|G1]; rewrite H1, G1 in *; qlra').
  assert (b' = b) as -> by congruence. unfold drift. fold (period r). set (P := period r) in *.
  assert (HP : (0 <= P)%Qc).
  { apply (mul_le_iff (s_rate r)); [exact Hp|]. unfold P, period. rewrite div_mul by exact Hp. rewrite Qcmult_0_l. discriminate. }
  clearbody P. split.
  - apply (Qcmult_lt_0_le_reg_r _ _ (Q2Qc 1 - Q2Qc (1 # 100000))); [reflexivity|].
    unfold Qcdiv. rewrite <- Qcmult_assoc. rewrite (Qcmult_comm (/ _)), Qcmult_inv_r by (intros E; discriminate E). rewrite Qcmult_1_r.
    subst b. destruct H1 as [H1|H1]; subst g; qlra'.
  - subst b. qlra'.
Qed.

Lemma slack_drift ρ : pos ρ -> forall (l : list sync) d, slack l d -> (forall x, In x l -> s_rate x = ρ) ->
  (forall x y, adjacent l x y -> follows x y) -> (d <= ZtoQc (Z.of_nat (length l) - 1) * drift ρ)%Qc.
Proof.
  intros Hρ l d H. induction H as [r|r r' l b d Hb Hs IH]; intros Hr Hf.
  - simpl. rewrite ZtoQc_0, Qcmult_0_l. apply Qcle_refl.
  - assert (IH' : (d <= ZtoQc (Z.of_nat (length (r' :: l)) - 1) * drift ρ)%Qc).
    { apply IH; [intros; apply Hr; right; assumption|]. intros x y (l1 & l2 & E). apply Hf. exists (r :: l1), l2. rewrite E. reflexivity. }
    assert (Er : s_rate r = ρ) by (apply Hr; left; reflexivity).
    destruct (tolerance_drift r r' b) as [T _]; [rewrite Er; exact Hρ|apply Hf; exists [], l; reflexivity|exact Hb|]. rewrite Er in T.
    change (length (r :: r' :: l)) with (S (length (r' :: l))). revert IH'. generalize (length (r' :: l)). intros n IH'.
    replace (Z.of_nat (S n) - 1)%Z with ((Z.of_nat n - 1) + 1)%Z by lia. rewrite ZtoQc_add, ZtoQc_1.
    replace ((ZtoQc (Z.of_nat n - 1) + Q2Qc 1) * drift ρ)%Qc with (drift ρ + ZtoQc (Z.of_nat n - 1) * drift ρ)%Qc by ring.
    apply Qcplus_le_compat; assumption.
Qed.

Lemma concat_nth {B C} (R : B -> list C -> Prop) (f : B -> nat) b ds : Forall2 R b ds -> (forall x e, R x e -> length e = f x) ->
  forall j v, nth_error (concat ds) j = Some v ->
  exists b1 r b2 i e, b = b1 ++ r :: b2 /\ j = list_sum (map f b1) + i /\ R r e /\ nth_error e i = Some v.
Proof.
  intros F L. induction F as [|r e b ds Hr F IH]; intros j v Hv; [destruct j; discriminate|]. simpl in Hv.
  destruct (Nat.lt_ge_cases j (length e)) as [Hj|Hj].
  - rewrite nth_error_app1 in Hv by exact Hj. exists [], r, b, j, e. auto.
  - rewrite nth_error_app2 in Hv by exact Hj. destruct (IH _ _ Hv) as (b1 & r1 & b2 & i & e1 & -> & E & H1 & H2).
    exists (r :: b1), r1, b2, i, e1. split; [reflexivity|]. split; [simpl; rewrite <- (L r e Hr); lia|]. auto.
Qed.

Theorem mcr_sampled (X Y : sigset) : good X -> merge_consecutive_runs kone X = Ok Y -> forall k p g' j v, records Y k p g' ->
  nth_error (g_vals g') j = Some v -> exists g i n, records X k p g /\ g_rate g = g_rate g' /\ nth_error (g_vals g) i = Some v /\ n <= j /\
    abs_le (seg_time g' j - seg_time g i)%Qc (ZtoQc (Z.of_nat n) * drift (g_rate g'))%Qc.
Proof.
  intros GX H k p g' j v (s & Hs & l & c & Hl & Hp & Hg) Hv.
  destruct (mcr_displaced kone X Y (gd_wf X GX) (fun s Hs => proj1 (gd_runs X GX s Hs)) (good_distinct X GX) H) as (bs & B & F).
  destruct (mcr_blocks kone X Y (gd_wf X GX) (good_distinct X GX) H) as (_ & _ & _ & D).
  destruct (Forall2_In_r' _ _ _ _ F Hs) as (b & Hb & G & Dis). pose proof G as (r0 & b0 & Eb & Hst & _ & Hr & HL & _ & Hd).
  assert (Hin : forall r, In r b -> In r (ss_signals X)) by (intros r Hrb; rewrite <- (bl_all _ _ B); apply in_concat; eauto).
  destruct Hg as (Gv & Gc & Gr & Gs). destruct (Hd c _ Gv) as (ds & Fds & Ed). rewrite Ed in Hv.
  assert (F' : Forall2 (fun (r : sync) e => In r b /\ nth_error (s_data r) c = Some e) b ds).
  { clear - Fds. assert (G : forall b' : list sync, (forall r, In r b' -> In r b) -> forall ds, Forall2 (fun (r : sync) e => nth_error (s_data r) c = Some e) b' ds ->
      Forall2 (fun (r : sync) e => In r b /\ nth_error (s_data r) c = Some e) b' ds).
    { intros b' Hb' ds0 F. induction F as [|r e b' ds0 H F IH]; constructor; [split; [apply Hb'; left; reflexivity|exact H]|]. apply IH. intros; apply Hb'; right; assumption. }
    apply G; auto. }
  destruct (concat_nth _ s_size b ds F') with (j := j) (v := v) as (b1 & r & b2 & i & e & E1 & E2 & (Hrb & E3) & E4).
  { intros r e [Hrb He]. pose proof (ws_sync X (gd_wf X GX) r (Hin r Hrb)) as Ok. apply (so_size r Ok). eapply nth_error_In; eauto. }
  { exact Hv. }
  destruct (Dis b1 r b2 (Z.of_nat i) E1) as (d & Hsl & Hab).
  assert (Hrate : forall x, In x b -> s_rate x = g_rate g') by (intros x Hx; rewrite Gr; symmetry; apply Hr, Hx).
  assert (Hpos : pos (g_rate g')) by (rewrite <- (Hrate r Hrb); apply (gd_runs X GX r (Hin r Hrb))).
  assert (Hbd : (d <= ZtoQc (Z.of_nat (length b1)) * drift (g_rate g'))%Qc).
  { replace (Z.of_nat (length b1)) with (Z.of_nat (length (b1 ++ [r])) - 1)%Z by (rewrite app_length; simpl; lia).
    apply slack_drift; [exact Hpos|exact Hsl| |].
    - intros x Hx. apply Hrate. rewrite E1. apply in_or_app. apply in_app_or in Hx as [Hx|[->|[]]]; [left; exact Hx|right; left; reflexivity].
    - apply (chain_prefix b1 b2 r). rewrite <- E1. intros u w. apply (bl_inside _ _ B b u w Hb). }
  destruct (is_seg_exists r c) as [g Hg]; [apply (ws_sync X (gd_wf X GX)), Hin, Hrb|eapply nth_error_Some_lt; eauto|].
  pose proof Hg as (Kv & _ & Kr & Ks). exists g, i, (length b1).
  split. { exists r. split; [apply Hin, Hrb|]. exists l, c. unfold reads in *. rewrite <- D. auto. }
  split; [rewrite Kr; apply Hrate, Hrb|]. split; [congruence|]. split.
  - rewrite E2. enough (length b1 <= list_sum (map s_size b1)) by lia.
    assert (Hz : forall x, In x b1 -> 1 <= s_size x).
    { intros x Hx. enough (2 <= s_size x) by lia. apply (gd_runs X GX), Hin. rewrite E1. apply in_or_app; left; exact Hx. }
    clear - Hz. induction b1 as [|x b1 IH]; simpl; [lia|]. pose proof (Hz x (or_introl eq_refl)). specialize (IH (fun y Hy => Hz y (or_intror Hy))). lia.
  - assert (T1 : seg_time g' j = sample_time s (Z.of_nat (list_sum (map s_size b1)) + Z.of_nat i)).
    { unfold seg_time, sample_time. cbn [nadd ndiv nofZ QA]. rewrite Gs, Gr, E2, Nat2Z.inj_add. reflexivity. }
    assert (T2 : seg_time g i = sample_time r (Z.of_nat i)) by (unfold seg_time, sample_time; cbn [nadd ndiv nofZ QA]; rewrite Ks, Kr; reflexivity).
    rewrite T1, T2. destruct Hab as [A1 A2]. split; [|eapply Qcle_trans; eauto]. eapply Qcle_trans; [|exact A1].
    apply Qcopp_le_compat, Hbd.
Qed.

(** ** the whole *)
Lemma pack_sigs (inv : list sigset) order sigs : (forall X, In X inv -> good X) ->
  mapM (fun f0 => i <- inv_select_runs kone inv (map (rate_mask f0) inv) ;; join_merge kone i) order = Ok sigs ->
  forall Z, In Z sigs -> good Z /\ origin inv Z.
Proof.
  intros G H Z HZ. destruct (mapM_In_r _ _ _ _ H HZ) as (f0 & _ & E). apply bind_ok in E as (i & E1 & E2).
  pose proof (inv_rate inv i f0 G E1) as R. destruct (join_merge_good i Z) as [GZ OZ]; [intros X HX; apply (R X HX)|exact E2|].
  split; [exact GZ|]. apply (origin_trans inv i); [intros X HX; apply (R X HX)|exact OZ].
Qed.

Lemma pack_inv (inv : list sigset) order Y : (forall X, In X inv -> good X) -> pack_multi kone order inv = Ok Y ->
  (ss_signals Y = [] /\ t_dict (ss_tags Y) = []) \/
  exists sigs J, sigs <> [] /\ (forall Z, In Z sigs -> good Z /\ origin inv Z /\ ss_signals Z <> [] /\ forall k, In k (inv_tags inv) -> exists n, tag_size Z k n) /\
    join_list kone sigs = Ok J /\ merge_consecutive_runs kone J = Ok Y.
Proof.
  intros G H. unfold pack_multi in H. apply bind_ok in H as (sigs & H1 & H2). pose proof (pack_sigs inv order sigs G H1) as S.
  set (sel := filter _ sigs) in H2. assert (HS : forall Z, In Z sel -> good Z /\ origin inv Z /\ ss_signals Z <> [] /\ forall k, In k (inv_tags inv) -> exists n, tag_size Z k n).
  { intros Z HZ. apply filter_In in HZ as [HZ E]. destruct (S Z HZ) as [S1 S2]. split; [exact S1|]. split; [exact S2|].
    apply andb_true_iff in E as [E1 E2]. split; [apply has_runs_b, E1|]. intros k Hk.
    apply (subsetb_incl _ string_eqb_iff) in E2. apply E2 in Hk. unfold dkeys in Hk. apply in_map_iff in Hk as ([k' l] & Ek & Hl). simpl in Ek. subst k'.
    exists (length l), l. auto. }
  destruct sel as [|Z0 sel']; [left; apply (set_nil_good Y H2)|]. right. apply bind_ok in H2 as (J & H2 & H3).
  exists (Z0 :: sel'), J. split; [discriminate|]. auto.
Qed.

Theorem pack_tags (inv : list sigset) order Y : (forall X, In X inv -> good X) -> pack_multi kone order inv = Ok Y ->
  (ss_signals Y = [] /\ t_dict (ss_tags Y) = []) \/
  (ss_signals Y <> [] /\ (forall k, In k (inv_tags inv) -> exists n, tag_size Y k n) /\ (forall k n, tag_size Y k n -> exists X, In X inv /\ tag_size X k n)).
Proof.
  intros G H. destruct (pack_inv inv order Y G H) as [E|(sigs & J & Hne & HS & HJ & HY)]; [left; exact E|right].
  destruct (join_good sigs J (fun Z HZ => proj1 (HS Z HZ)) HJ) as [GJ OJ].
  destruct (join_list_holds QA_ord kone sigs J (fun Z HZ => gd_wf Z (proj1 (HS Z HZ))) HJ) as (_ & HH & HK).
  destruct (mcr_blocks kone J Y (gd_wf J GJ) (good_distinct J GJ) HY) as (bs & B & F & D).
  destruct sigs as [|Z0 sigs]; [congruence|]. destruct (HS Z0 (or_introl eq_refl)) as (GZ & OZ & RZ & TZ).
  assert (TY : forall k n, tag_size Y k n <-> tag_size J k n) by (intros k n; unfold tag_size, reads; rewrite D; reflexivity).
  split; [|split].
  - destruct (ss_signals Z0) as [|s0 rs] eqn:Es; [congruence|].
    destruct (holds_run_l _ J (ss_tags Z0) s0 HH) as (s' & Hs' & _).
    { apply in_set_runs. exists Z0. split; [left; reflexivity|]. split; [reflexivity|rewrite Es; left; reflexivity]. }
    intros E. rewrite E in F. inversion F; subst. rewrite <- (bl_all _ _ B) in Hs'. destruct Hs'.
  - intros k Hk. destruct (TZ k Hk) as [n Hn]. exists n. apply TY. apply (HK Z0 (or_introl eq_refl)), Hn.
  - intros k n Hn. apply TY, (HK Z0 (or_introl eq_refl)) in Hn. apply OZ, Hn.
Qed.

Theorem pack_samples (inv : list sigset) order Y : (forall X, In X inv -> good X) -> pack_multi kone order inv = Ok Y ->
  forall k p g' j v, records Y k p g' -> nth_error (g_vals g') j = Some v ->
  exists X g i n, In X inv /\ records X k p g /\ g_rate g = g_rate g' /\ nth_error (g_vals g) i = Some v /\ n <= j /\
    abs_le (seg_time g' j - seg_time g i)%Qc (ZtoQc (Z.of_nat n) * drift (g_rate g'))%Qc.
Proof.
  intros G H k p g' j v Hg Hv. destruct (pack_inv inv order Y G H) as [[E _]|(sigs & J & Hne & HS & HJ & HY)].
  { destruct Hg as (s & Hs & _). rewrite E in Hs. destruct Hs. }
  destruct (join_good sigs J (fun Z HZ => proj1 (HS Z HZ)) HJ) as [GJ OJ].
  destruct (mcr_sampled J Y GJ HY k p g' j v Hg Hv) as (g & i & n & H1 & H2 & H3 & H4 & H5).
  assert (O : origin inv J) by (apply (origin_trans inv sigs); [intros Z HZ; apply (HS Z HZ)|exact OJ]).
  destruct (proj2 O k p (g_rate g') (seg_time g i) v) as (X & HX & g0 & i0 & K1 & K2 & K3 & K4); [exists g, i; auto|].
  exists X, g0, i0, n. rewrite K4. auto 10.
Qed.

(** ** [keep_multi_tags=False] *)
Lemma split_good (inv i : list sigset) torder : (forall X, In X inv -> good X) -> split_single kone torder inv = Ok i ->
  forall Y, In Y i -> good Y /\ origin inv Y.
Proof.
  intros G H Y HY. unfold split_single in H. apply bind_ok in H as (ll & H1 & H2). injection H2 as <-. apply in_concat in HY as (l & Hl & HY).
  destruct (mapM_In_r _ _ _ _ H1 Hl) as (t & _ & E). destruct (inv_channels inv l [t] G E Y HY) as (X & _ & _ & GY & OY). auto.
Qed.
Lemma kept_In_l {B C} (P : B -> Prop) (R : B -> C -> Prop) l l' x : kept P R l l' -> In x l -> P x -> exists y, In y l' /\ R x y.
Proof.
  induction 1 as [|z l l' Hz _ IH|z y l l' Hz Hzy _ IH]; intros Hx Px; [destruct Hx| |].
  - destruct Hx as [<-|Hx]; [contradiction|auto].
  - destruct Hx as [<-|Hx]; [exists y; simpl; auto|]. destruct (IH Hx Px) as (y' & ? & ?). exists y'. simpl; auto.
Qed.
Lemma split_tags (inv i : list sigset) torder : (forall X, In X inv -> good X) -> split_single kone torder inv = Ok i ->
  forall t X l c, In t torder -> In X inv -> reads (ss_tags X) t (c :: l) -> In t (inv_tags i).
Proof.
  intros G H t X l c Ht HX Hl. unfold split_single in H. apply bind_ok in H as (ll & H1 & H2). injection H2 as <-.
  destruct (mapM_In _ _ _ _ H1 Ht) as (it & Hit & E). apply inv_select_channels_spec in E; [|intros Z HZ; apply (G Z HZ)|intros Z HZ; apply (G Z HZ)].
  destruct (kept_In_l _ _ _ _ X E HX) as (Y & HY & (cs & _ & Hcs & _ & HS & _)).
  { exists t, (c :: l), c. simpl; auto. }
  apply inv_tags_In. destruct (proj2 (HS t (length (c :: l)))) as (l' & Hl' & _).
  { exists (c :: l). split; [exact Hl|]. split; [reflexivity|]. intros x Hx. apply Hcs. exists t, (c :: l). simpl; auto. }
  exists Y, l'. split; [|exact Hl']. apply in_concat. eauto.
Qed.

Lemma pack_every_tag (inv : list sigset) order Y : (forall X, In X inv -> good X) -> pack_multi kone order inv = Ok Y ->
  (ss_signals Y = [] /\ t_dict (ss_tags Y) = []) \/
  (ss_signals Y <> [] /\ forall k, (exists n, tag_size Y k n) <-> exists X n, In X inv /\ tag_size X k n).
Proof.
  intros G H. destruct (pack_tags inv order Y G H) as [E|(H1 & H2 & H3)]; [left; exact E|right]. split; [exact H1|]. intros k. split.
  - intros [n Hn]. destruct (H3 k n Hn) as (X & HX & Hs). eauto.
  - intros (X & n & HX & l & Hl & _). apply H2, inv_tags_In. eauto.
Qed.
Lemma pack_single_tags (inv : list sigset) torder order Y : (forall X, In X inv -> good X) -> pack kone false torder order inv = Ok Y ->
  (ss_signals Y = [] /\ t_dict (ss_tags Y) = []) \/
  (ss_signals Y <> [] /\ (forall k X n, In k torder -> In X inv -> tag_size X k (S n) -> exists n, tag_size Y k n) /\
   forall k n, tag_size Y k n -> exists X, In X inv /\ tag_size X k n).
Proof.
  intros G H. unfold pack in H. apply bind_ok in H as (i & Hi & H). pose proof (split_good inv i torder G Hi) as S.
  destruct (pack_tags i order Y (fun Z HZ => proj1 (S Z HZ)) H) as [E|(H1 & H2 & H3)]; [left; exact E|right]. split; [exact H1|]. split.
  - intros k X n Hk HX (l & Hl & En). destruct l as [|c l]; [discriminate|]. apply H2. exact (split_tags inv i torder G Hi k X l c Hk HX Hl).
  - intros k n Hn. destruct (H3 k n Hn) as (Z & HZ & Hs). apply (S Z HZ), Hs.
Qed.
Lemma pack_all_samples (inv : list sigset) keep torder order Y : (forall X, In X inv -> good X) -> pack kone keep torder order inv = Ok Y ->
  forall k p g' j v, records Y k p g' -> nth_error (g_vals g') j = Some v ->
  exists X g i n, In X inv /\ records X k p g /\ g_rate g = g_rate g' /\ nth_error (g_vals g) i = Some v /\ n <= j /\
    abs_le (seg_time g' j - seg_time g i)%Qc (ZtoQc (Z.of_nat n) * drift (g_rate g'))%Qc.
Proof.
  intros G H. destruct keep; [exact (pack_samples inv order Y G H)|]. unfold pack in H. apply bind_ok in H as (i & Hi & H).
  pose proof (split_good inv i torder G Hi) as S. intros k p g' j v Hg Hv.
  destruct (pack_samples i order Y (fun Z HZ => proj1 (S Z HZ)) H k p g' j v Hg Hv) as (X & g & a & n & HX & H1 & H2 & H3 & H4 & H5).
  destruct (proj2 (proj2 (S X HX)) k p (g_rate g') (seg_time g a) v) as (X' & HX' & g1 & a1 & K1 & K2 & K3 & K4); [exists g, a; auto|].
  exists X', g1, a1, n. rewrite K4. auto 10.
Qed.

(** the tags that a member of the inventory uses for one channel *)
Lemma single_tags_spec (inv : list sigset) : (forall X, In X inv -> good X) ->
  NoDup (single_tags inv) /\ forall k, In k (single_tags inv) <-> exists X, In X inv /\ tag_size X k 1.
Proof.
  intros G. split; [apply NoDup_filter; unfold inv_tags; apply NoDup_dedup, string_eqb_iff|]. intros k. unfold single_tags. rewrite filter_In, inv_tags_In, existsb_exists. split.
  - intros (_ & X & HX & H). exists X. split; [exact HX|]. destruct (dget k (t_dict (ss_tags X))) as [l|] eqn:E; [|discriminate]. exists l. split; [apply dget_In, E|apply Nat.eqb_eq, H].
  - intros (X & HX & l & Hl & E). split; [eauto|]. exists X. split; [exact HX|].
    rewrite (In_dget k l (t_dict (ss_tags X))); [apply Nat.eqb_eq, E| |exact Hl]. apply (ws_tags _ (gd_wf _ (G X HX))).
Qed.
End Pack.
