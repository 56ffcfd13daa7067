(** Excluding a window whose ends are in the wrong order: proofs (exact arithmetic). *)
From Coq Require Import QArith Qcanon.
From Verif Require Import Base BaseLemmas SliceLemmas Arith OrdLaws QcLemmas TagsModel SpecTags TagsProofs
  SyncModel SetModel SpecSet SetProofs SpecSelect TrackProofs SelectProofs OrderProofs JoinProofs JoinOk
  SpecTime ExtractProofs ExtractSet ExcludeProofs JoinWhen.
Open Scope nat_scope.

Section More.
Context {V K : Type} (kone : K).
Notation sync := (sync QA V K).
Notation sigset := (@sigset QA V K).

Lemma count_two P (s : sync) i j : i < j -> j < s_size s -> P (sample_time s (Z.of_nat i)) = true -> P (sample_time s (Z.of_nat j)) = true -> 2 <= count P s.
Proof.
  intros Hij Hj Hi Hp. unfold count. change 2 with (length [i; j]). apply NoDup_incl_length.
  - constructor; [intros [E|[]]; lia|]. constructor; [intros []|constructor].
  - intros x [<-|[<-|[]]]; apply filter_In; (split; [apply in_seq; lia|assumption]).
Qed.
Lemma count_mono (P Q : Qc -> bool) (s : sync) : (forall t, P t = true -> Q t = true) -> count P s <= count Q s.
Proof.
  intros H. unfold count. apply NoDup_incl_length; [apply NoDup_filter, seq_NoDup|].
  intros x Hx. apply filter_In in Hx as [H1 H2]. apply filter_In. auto.
Qed.
Lemma count_split P (s : sync) : 2 <= count P s -> exists i j, i < j /\ j < s_size s /\ P (sample_time s (Z.of_nat i)) = true /\ P (sample_time s (Z.of_nat j)) = true.
Proof.
  unfold count. intros H. destruct (filter _ _) as [|i [|j l]] eqn:E; try (cbn in H; lia).
  assert (A : forall x, In x (i :: j :: l) -> x < s_size s /\ P (sample_time s (Z.of_nat x)) = true).
  { intros x Hx. rewrite <- E in Hx. apply filter_In in Hx as [H1 H2]. apply in_seq in H1. split; [lia|exact H2]. }
  assert (N : NoDup (i :: j :: l)) by (rewrite <- E; apply NoDup_filter, seq_NoDup).
  inversion N as [|? ? N1 _]; subst. destruct (A i (or_introl eq_refl)), (A j (or_intror (or_introl eq_refl))).
  destruct (Nat.lt_trichotomy i j) as [L|[->|L]]; [exists i, j; auto|exfalso; apply N1; left; reflexivity|exists j, i; auto].
Qed.

Lemma cut_last (s : sync) i n : pos (s_rate s) -> 1 <= n -> last_time (cut s i n) = sample_time s (Z.of_nat (i + (n - 1))).
Proof. intros Hr Hn. unfold last_time. simpl s_size. replace (Z.of_nat n - 1)%Z with (Z.of_nat (n - 1)) by lia. apply cut_time, Hr. Qed.

Lemma in_within a b t : within a b t = true <-> (a <= t)%Qc /\ (t <= b)%Qc.
Proof. unfold within. rewrite andb_true_iff, !Qcleb_le. tauto. Qed.

(** no run has two samples in the crossed window: the two halves do not overlap *)
Lemma few_separated (X : sigset) start stop : wf_set X -> positive_rates X ->
  (forall s, In s (ss_signals X) -> count (within stop start) s <= 1) ->
  forall l1 l2, cuts (upto start) (ss_signals X) l1 -> cuts (from stop) (ss_signals X) l2 -> forall s s', In s l1 -> In s' l2 -> before s s'.
Proof.
  intros HX Hr Hfew l1 l2 CL CR s s' Hs Hs'.
  destruct (cuts_In _ _ _ _ CL Hs) as (r & i & n & R1 & [R2 R3] & R4 & ->).
  destruct (cuts_In _ _ _ _ CR Hs') as (r' & i' & n' & Q1 & [Q2 Q3] & Q4 & ->).
  unfold before. rewrite (cut_last r i n (Hr _ R1)) by lia. simpl s_start.
  destruct (In_nth_error _ _ R1) as (p & Hp). destruct (In_nth_error _ _ Q1) as (q & Hq).
  pose proof (wf_before X HX) as Hsort.
  destruct (Nat.lt_trichotomy p q) as [L|[E|L]].
  - pose proof (StronglySorted_nth _ _ Hsort p q r r' L Hp Hq) as B. unfold before in B.
    eapply Qcle_trans; [apply sample_mono with (j := (Z.of_nat (s_size r) - 1)%Z); [apply Hr, R1|lia]|].
    eapply Qcle_trans; [exact B|]. apply sample_range; [apply Hr, Q1|lia].
  - subst q. assert (r = r') by congruence. subst r'.
    destruct (Z.le_gt_cases (Z.of_nat (i + (n - 1))) (Z.of_nat i')) as [G|G]; [apply sample_mono; [apply Hr, R1|lia]|].
    exfalso. specialize (Hfew r R1). assert (2 <= count (within stop start) r); [|lia].
    assert (E1 : from stop (sample_time r (Z.of_nat i')) = true) by (apply Q3; lia).
    assert (E2 : upto start (sample_time r (Z.of_nat (i + (n - 1)))) = true) by (apply R3; lia).
    unfold from in E1; unfold upto in E2. apply Qcleb_le in E1, E2.
    apply (count_two _ r i' (i + (n - 1))); [lia|lia| |]; apply in_within; split; try assumption.
    + eapply Qcle_trans; [apply sample_mono with (j := Z.of_nat (i + (n - 1))); [apply Hr, R1|lia]|exact E2].
    + eapply Qcle_trans; [exact E1|]. apply sample_mono; [apply Hr, R1|lia].
  - exfalso. pose proof (StronglySorted_nth _ _ Hsort q p r' r L Hq Hp) as B. unfold before in B.
    specialize (Hfew r R1). assert (2 <= count (within stop start) r); [|lia].
    assert (E1 : from stop (sample_time r' (Z.of_nat i')) = true) by (apply Q3; lia). unfold from in E1. apply Qcleb_le in E1.
    assert (T : forall j, i <= j < i + n -> within stop start (sample_time r (Z.of_nat j)) = true).
    { intros j Hj. apply in_within. split.
      - eapply Qcle_trans; [exact E1|]. eapply Qcle_trans; [apply (sample_range r' i'); [apply Hr, Q1|lia]|].
        eapply Qcle_trans; [exact B|]. apply sample_range; [apply Hr, R1|lia].
      - apply Qcleb_le. apply R3; lia. }
    apply (count_two _ r i (i + 1)); [lia|lia|apply T; lia|apply T; lia].
Qed.

Lemma exclude_crossed (X : sigset) start stop : wf_set X -> positive_rates X -> plain (ss_tags X) -> ss_signals X <> [] -> top_tagged (ss_tags X) ->
  (forall s, In s (ss_signals X) -> count (within stop start) s <= 1) ->
  exists Y, extract_t kone X start stop true = Ok Y /\ ss_tags Y = ss_tags X /\
    (forall k p gs, tracks X k p gs -> exists gs1 gs2, tracks Y k p (gs1 ++ gs2) /\ restriction (upto start) gs gs1 /\ restriction (from stop) gs gs2).
Proof.
  intros HX Hr Hp Hne Ht Hfew.
  destruct (exclude_spec kone X start stop HX Hr Hp Hne Ht (few_separated X start stop HX Hr Hfew)) as (Y & l1 & l2 & E & Et & Es & C1 & C2).
  exists Y. split; [exact E|]. split; [exact Et|]. apply (restriction_app_tracks X Y start stop l1 l2); assumption.
Qed.

Lemma cuts_kept P (l l' : list sync) s : cuts P l l' -> In s l -> 2 <= count P s -> exists i n, iscut P s i n /\ 2 <= n /\ In (cut s i n) l'.
Proof.
  induction 1 as [|s0 l l' i n Hi Hn Hc IH|s0 l l' i n Hi Hn Hc IH]; [intros []| |].
  - intros [->|Hin] H2; [exists i, n; split; [exact Hi|]; split; [exact Hn|left; reflexivity]|].
    destruct (IH Hin H2) as (i' & n' & G1 & G2 & G3). exists i', n'. split; [exact G1|]. split; [exact G2|right; exact G3].
  - intros [->|Hin] H2; [rewrite (count_iscut _ _ _ _ Hi) in H2; lia|]. exact (IH Hin H2).
Qed.

(** two samples in the crossed window: the halves overlap *)
Lemma exclude_overlap (X : sigset) start stop : wf_set X -> positive_rates X -> plain (ss_tags X) ->
  (exists s, In s (ss_signals X) /\ 2 <= count (within stop start) s) -> extract_t kone X start stop true = Err AssertionError.
Proof.
  intros HX Hr Hp (r & R1 & R2).
  assert (Hne : ss_signals X <> []) by (intros E; rewrite E in R1; destruct R1).
  destruct (exclude_halves kone X start stop HX Hr Hne Hp) as (first & last & left & right & _ & _ & HL & HR & CL & CR & ->).
  destruct (extract_in_inv kone X _ _ left HX Hr HL) as (CL' & DL & TL).
  destruct (extract_in_inv kone X _ _ right HX Hr HR) as (CR' & DR & TR).
  assert (HwL : wf_set left) by (eapply (extract_in_wf kone QA_ord); eauto).
  assert (HwR : wf_set right) by (eapply (extract_in_wf kone QA_ord); eauto).
  assert (C1 : 2 <= count (upto start) r).
  { eapply Nat.le_trans; [exact R2|]. apply count_mono. intros t H. apply in_within in H as [_ H]. apply Qcleb_le, H. }
  assert (C2 : 2 <= count (from stop) r).
  { eapply Nat.le_trans; [exact R2|]. apply count_mono. intros t H. apply in_within in H as [H _]. apply Qcleb_le, H. }
  destruct (cuts_kept _ _ _ r CL R1 C1) as (i & n & [I1 I2] & I3 & I4).
  destruct (cuts_kept _ _ _ r CR R1 C2) as (i' & n' & [J1 J2] & J3 & J4).
  assert (Htags : forall P (Y : sigset), cuts P (ss_signals X) (ss_signals Y) -> ss_signals Y <> [] -> set_tags (ss_signals Y) None (TObj (ss_tags X)) = Ok (ss_tags Y) -> ss_tags Y = ss_tags X).
  { intros P Y Hc HY Hs. destruct (cuts_tags X _ _ HX Hp Hc) as (t2 & T2 & _ & E2). rewrite E2 in T2 by exact HY. congruence. }
  assert (EL : ss_tags left = ss_tags X) by (apply (Htags _ left CL); [intros E; rewrite E in I4; destruct I4|exact TL]).
  assert (ER : ss_tags right = ss_tags X) by (apply (Htags _ right CR); [intros E; rewrite E in J4; destruct J4|exact TR]).
  set (t := ss_tags X) in *.
  assert (Hj : join kone left [ASet right] = set_of_syncs (TObj t) (ss_signals left ++ ss_signals right)).
  { unfold join, set_new. cbn [mapM]. rewrite EL. rewrite <- EL at 1. rewrite (reorder_self kone left HwL). cbn [bind].
    rewrite <- ER at 1. rewrite (reorder_self kone right HwR). cbn [bind concat]. rewrite app_nil_r. reflexivity. }
  rewrite Hj. clear Hj. set (l := ss_signals left ++ ss_signals right).
  assert (Hinf : forall s, In s l -> pos (s_rate s) /\ (s_start s <= last_time s)%Qc).
  { intros s Hs. apply in_app_iff in Hs as [Hs|Hs];
      [destruct (cuts_infos _ X left HX Hr CL s Hs) as (_ & ? & ? & _)|destruct (cuts_infos _ X right HX Hr CR s Hs) as (_ & ? & ? & _)]; auto. }
  apply set_of_syncs_overlap.
  { intros s Hs. apply in_app_iff in Hs as [Hs|Hs]; [apply (ws_rate left HwL s Hs)|apply (ws_rate right HwR s Hs)]. }
  apply not_true_iff_false. intros Ho.
  assert (Hf : forall x, In x (sort_signals l) -> forward x).
  { intros x Hx. apply Qcleb_le. apply Hinf. apply sort_signals_In, Hx. }
  assert (Hdj : disjoint_runs l).
  { eapply disjoint_perm; [symmetry; apply (sort_perm sync_lt)|]. apply FOP_of_nth.
    intros p q x y Hpq Hp' Hq. left. apply (sorted_disjoint QA_ord _ Hf Ho p q); assumption. }
  destruct (In_nth_error _ _ I4) as (p & Hp'). destruct (In_nth_error _ _ J4) as (q & Hq).
  assert (P1 : nth_error l p = Some (cut r i n)) by (unfold l; rewrite nth_error_app1; [exact Hp'|apply nth_error_Some_lt in Hp'; exact Hp']).
  assert (P2 : nth_error l (length (ss_signals left) + q) = Some (cut r i' n')).
  { unfold l. rewrite nth_error_app2 by lia. replace (length (ss_signals left) + q - length (ss_signals left)) with q by lia. exact Hq. }
  pose proof (nth_error_Some_lt _ _ _ Hp') as Lp.
  pose proof (FOP_nth _ _ p (length (ss_signals left) + q) _ _ Hdj ltac:(lia) P1 P2) as D.
  destruct (count_split _ _ R2) as (x & y & Hxy & Hy & Wx & Wy). apply in_within in Wx as [Wx1 Wx2], Wy as [Wy1 Wy2].
  pose proof (Hr r R1) as Hpos.
  assert (Ax : i <= x < i + n) by (apply I2; [lia|apply Qcleb_le, Wx2]). assert (Ay : i <= y < i + n) by (apply I2; [lia|apply Qcleb_le, Wy2]).
  assert (Bx : i' <= x < i' + n') by (apply J2; [lia|apply Qcleb_le, Wx1]). assert (By : i' <= y < i' + n') by (apply J2; [lia|apply Qcleb_le, Wy1]).
  assert (Strict : forall u v, (u < v)%Z -> (sample_time r v <= sample_time r u)%Qc -> False).
  { intros u v Huv Hle. apply sample_mono in Hle; [lia|exact Hpos]. }
  destruct D as [D|D]; apply Qcleb_le in D; rewrite cut_last in D by (try assumption; lia); simpl s_start in D; eapply Strict; try exact D; lia.
Qed.
End More.
