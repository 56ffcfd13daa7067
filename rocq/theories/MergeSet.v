(** Merging signal sets: the whole operation (exact arithmetic). *)
From Coq Require Import QArith Qcanon.
From Verif Require Import Base BaseLemmas SliceLemmas Arith OrdLaws QcLemmas TagsModel SpecTags TagsProofs
  SyncModel SetModel SpecSet SetProofs SpecSelect TrackProofs SelectProofs OrderProofs JoinProofs JoinOk
  SpecTime ExtractProofs ExtractSet ExcludeProofs ExtractSync SpecMerge MergeCommon MergeProofs.
Open Scope nat_scope.

Section MergeSet.
Context {V K : Type} (kone : K).
Notation sync := (sync QA V K).
Notation sigset := (@sigset QA V K).
Notation seg := (@seg QA V K).

Definition ivs (X : sigset) : list (Qc * Qc) := map (fun r => (s_start r, last_time r)) (ss_signals X).
Definition bounds (seqs : list sigset) (d f : Qc) : Prop :=
  forall X r, In X seqs -> In r (ss_signals X) ->
    (d <= s_start r)%Qc /\ (d <= last_time r)%Qc /\ (s_start r <= f)%Qc /\ (last_time r <= f)%Qc.

Lemma ivs_sorted (X : sigset) : wf_set X -> StronglySorted by_start (ivs X).
Proof.
  intros W. apply StronglySorted_of_nth. intros i j x y Hij Hx Hy.
  apply nth_error_map_some in Hx as (r & Hr & ->), Hy as (r' & Hr' & ->). unfold by_start. simpl.
  pose proof (ws_sorted X W i j r r' Hij Hr Hr') as H. apply Qcltb_ge in H. exact H.
Qed.
Lemma ivs_apart (X : sigset) : wf_set X -> StronglySorted apart (ivs X).
Proof.
  intros W. apply StronglySorted_of_nth. intros i j x y Hij Hx Hy.
  apply nth_error_map_some in Hx as (r & Hr & ->), Hy as (r' & Hr' & ->). unfold apart. simpl.
  exact (StronglySorted_nth _ _ (wf_before X W) i j r r' Hij Hr Hr').
Qed.

Lemma num_min_err (l : list (num QA)) e : num_min l = Err e -> l = [] /\ e = ValueError.
Proof. destruct l; [|discriminate]. intros H. injection H as <-. auto. Qed.
Lemma num_max_err (l : list (num QA)) e : num_max l = Err e -> l = [] /\ e = ValueError.
Proof. destruct l; [|discriminate]. intros H. injection H as <-. auto. Qed.

Definition endpoints (l : list (Qc * Qc)) : list Qc := concat (map (fun iv => [fst iv; snd iv]) l).
Lemma endpoints_In l x : In x (endpoints l) <-> exists iv, In iv l /\ (x = fst iv \/ x = snd iv).
Proof.
  unfold endpoints. rewrite in_concat. split.
  - intros (y & Hy & Hx). apply in_map_iff in Hy as (iv & <- & Hiv). exists iv. split; [exact Hiv|]. destruct Hx as [<-|[<-|[]]]; auto.
  - intros (iv & Hiv & H). exists [fst iv; snd iv]. split; [apply in_map_iff; eauto|]. destruct H as [->| ->]; simpl; auto.
Qed.

Lemma merge_intervals (seqs : list sigset) : (forall X, In X seqs -> wf_set X) ->
  mapM intervals seqs = Ok (map ivs seqs).
Proof.
  intros H. apply mapM_ok_all. intros X HX. apply mapM_interval. split; [apply (ws_rate X (H X HX))|reflexivity].
Qed.

Lemma merge_bounds (seqs : list sigset) mins maxs d f :
  mapM (fun l => @num_min QA (endpoints l)) (map ivs seqs) = Ok mins -> @num_min QA mins = Ok d ->
  mapM (fun l => @num_max QA (endpoints l)) (map ivs seqs) = Ok maxs -> @num_max QA maxs = Ok f ->
  bounds seqs d f /\ forall X, In X seqs -> ss_signals X <> [].
Proof.
  intros H1 H2 H3 H4. apply num_min_spec in H2 as [_ H2]. apply num_max_spec in H4 as [_ H4]. split.
  - intros X r HX Hr. destruct (mapM_In _ _ _ (ivs X) H1 (in_map _ _ _ HX)) as (m & Hm & Em).
    destruct (mapM_In _ _ _ (ivs X) H3 (in_map _ _ _ HX)) as (M & HM & EM).
    apply num_min_spec in Em as [_ Em]. apply num_max_spec in EM as [_ EM].
    assert (Hiv : In (s_start r, last_time r) (ivs X)) by (apply in_map_iff; eauto).
    assert (I1 : In (s_start r) (endpoints (ivs X))) by (apply endpoints_In; eauto).
    assert (I2 : In (last_time r) (endpoints (ivs X))) by (apply endpoints_In; eauto).
    repeat split.
    + exact (Qcle_trans _ _ _ (H2 _ Hm) (Em _ I1)).
    + exact (Qcle_trans _ _ _ (H2 _ Hm) (Em _ I2)).
    + exact (Qcle_trans _ _ _ (EM _ I1) (H4 _ HM)).
    + exact (Qcle_trans _ _ _ (EM _ I2) (H4 _ HM)).
  - intros X HX E. destruct (mapM_In _ _ _ (ivs X) H1 (in_map _ _ _ HX)) as (m & Hm & Em).
    unfold ivs in Em. rewrite E in Em. discriminate.
Qed.

Lemma merge_inv (seqs : list sigset) Y : (forall X, In X seqs -> wf_set X) -> merge_all kone seqs = Ok Y ->
  NoDup (names seqs) /\ (forall X, In X seqs -> ss_signals X <> []) /\
  exists t d f outs, tags_new (Some (Z.of_nat (list_sum (map nb_channels seqs)))) (merge_tags seqs) = Ok t /\
    t_dict (ss_tags Y) = t_dict t /\ bounds seqs d f /\
    mapM (merge_one (A := QA) kone seqs) (common' d f (map ivs seqs)) = Ok outs /\
    ss_signals Y = sort_signals (somes outs).
Proof.
  intros W H. unfold merge_all in H. apply bind_ok in H as (m1 & _ & H). apply bind_ok in H as ([] & Hnd & H).
  apply check_ok in Hnd. apply Nat.eqb_eq in Hnd. apply (dedup_length_NoDup String.eqb String.eqb_eq) in Hnd.
  apply bind_ok in H as (m2 & _ & H). apply bind_ok in H as (t & Ht & H). rewrite fold_channels in Ht. simpl in Ht.
  rewrite (merge_intervals seqs W) in H. cbn [bind] in H.
  apply bind_ok in H as (mins & H1 & H). apply bind_ok in H as (d & H2 & H).
  apply bind_ok in H as (maxs & H3 & H). apply bind_ok in H as (f & H4 & H). apply bind_ok in H as (outs & Ho & H).
  destruct (merge_bounds seqs mins maxs d f H1 H2 H3 H4) as [B1 B2].
  split; [exact Hnd|]. split; [exact B2|]. exists t, d, f, outs. split; [exact Ht|].
  rewrite set_new_syncs in H. apply set_of_syncs_inv in H as (D1 & D2 & D3 & D4 & D5).
  assert (Vt : tags_valid t) by (eapply tags_new_valid; eauto).
  split; [eapply set_tags_obj; eauto|]. split; [exact B1|]. split; [exact Ho|]. exact D3.
Qed.

Definition iv_of (r : sync) : Qc * Qc := (s_start r, last_time r).
Lemma choice_ivs (seqs : list sigset) is : Forall2 (fun l r => In r l) (map ivs seqs) is <->
  exists rs, choice seqs rs /\ is = map iv_of rs.
Proof.
  revert is. induction seqs as [|X seqs IH]; intros is; simpl.
  - split; [intros H; inversion H; exists []; split; [constructor|reflexivity]|intros (rs & H & ->); inversion H; constructor].
  - split.
    + intros H. inversion H as [|? iv ? is' H1 H2]; subst. apply IH in H2 as (rs & Hc & ->).
      apply in_map_iff in H1 as (r & <- & Hr). exists (r :: rs). split; [constructor; assumption|reflexivity].
    + intros (rs & H & ->). inversion H as [|? r ? rs' H1 H2]; subst. simpl. constructor; [apply in_map_iff; exists r; auto|].
      apply IH. exists rs'. auto.
Qed.
Lemma pairs_map {B C} (g : B -> C) (R : C -> C -> Prop) l : ForallOrdPairs R (map g l) <-> ForallOrdPairs (fun x y => R (g x) (g y)) l.
Proof.
  induction l as [|x l IH]; simpl; split; intros H; try constructor; inversion H; subst; rewrite ?Forall_map in *; auto; try (apply IH; assumption).
Qed.
Lemma pairs_all {B} (R : B -> B -> Prop) l : (forall x y, In x l -> In y l -> R x y) -> ForallOrdPairs R l.
Proof.
  induction l as [|x l IH]; intros H; constructor.
  - apply Forall_forall. intros y Hy. apply H; simpl; auto.
  - apply IH. intros; apply H; simpl; auto.
Qed.
Lemma sorted_all (seqs : list sigset) : fine seqs -> Forall (StronglySorted by_start) (map ivs seqs).
Proof. intros Hf. apply Forall_map, Forall_forall. intros X HX. apply ivs_sorted, Hf, HX. Qed.

Lemma span_unique (rs : list sync) D F D' F' : span rs D F -> span rs D' F' -> D = D' /\ F = F'.
Proof.
  intros [[(r & Hr & E) H] [(q & Hq & Eq) Hq2]] [[(r' & Hr' & E') H'] [(q' & Hq' & Eq') Hq2']]. split.
  - apply Qcle_antisym; [rewrite <- E; apply H', Hr|rewrite <- E'; apply H, Hr'].
  - apply Qcle_antisym; [rewrite <- Eq'; apply Hq2, Hq'|rewrite <- Eq; apply Hq2', Hq].
Qed.
Lemma span_covers (rs : list sync) D F : span rs D F -> Forall (covers D F) rs.
Proof. intros [[_ H] [_ G]]. apply Forall_forall. intros r Hr. split; auto. Qed.

Lemma common_span (seqs : list sigset) d f D F : fine seqs -> seqs <> [] -> bounds seqs d f ->
  In (D, F) (common' d f (map ivs seqs)) -> exists rs, choice seqs rs /\ overlapping rs /\ span rs D F.
Proof.
  intros Hf Hne Hb H. apply (common_In _ (sorted_all seqs Hf)) in H as (is & His & Hm & -> & ->).
  apply choice_ivs in His as (rs & Hc & ->). exists rs. split; [exact Hc|].
  apply meets_iff in Hm as [_ Hm]. apply pairs_map in Hm. split; [exact Hm|].
  assert (Hr : exists r, In r rs) by (destruct Hc as [|? r]; [congruence|exists r; left; reflexivity]).
  assert (B : forall r, In r rs -> (d <= s_start r)%Qc /\ (last_time r <= f)%Qc).
  { intros r Hin. destruct (choice_In seqs rs r Hc Hin) as (X & HX & HrX). destruct (Hb X r HX HrX) as (? & ? & ? & ?). auto. }
  destruct (dmax_spec (map iv_of rs) d) as (_ & D1 & D2). destruct (fmin_spec (map iv_of rs) f) as (_ & F1 & F2).
  split; split.
  - destruct D2 as [E|(iv & Hiv & E)].
    + destruct Hr as [r Hr]. exists r. split; [exact Hr|]. apply Qcle_antisym; [apply (D1 (iv_of r)), in_map, Hr|]. rewrite E. apply (proj1 (B r Hr)).
    + apply in_map_iff in Hiv as (r & <- & Hr'). exists r. auto.
  - intros r Hin. apply (D1 (iv_of r)), in_map, Hin.
  - destruct F2 as [E|(iv & Hiv & E)].
    + destruct Hr as [r Hr]. exists r. split; [exact Hr|]. apply Qcle_antisym; [|apply (F1 (iv_of r)), in_map, Hr]. rewrite E. apply (proj2 (B r Hr)).
    + apply in_map_iff in Hiv as (r & <- & Hr'). exists r. auto.
  - intros r Hin. apply (F1 (iv_of r)), in_map, Hin.
Qed.
Lemma span_In (seqs : list sigset) d f D F rs : fine seqs -> bounds seqs d f ->
  choice seqs rs -> span rs D F -> ForallOrdPairs (fun r r' : sync => (s_start r < last_time r')%Qc /\ (s_start r' < last_time r)%Qc) rs ->
  (forall r, In r rs -> (d < last_time r)%Qc /\ (s_start r < f)%Qc) ->
  In (D, F) (common' d f (map ivs seqs)).
Proof.
  intros Hf Hb Hc Hsp Hp Ho. apply (common_In _ (sorted_all seqs Hf)). exists (map iv_of rs).
  split; [apply choice_ivs; eauto|]. split.
  - apply meets_iff. split.
    + intros iv Hiv. apply in_map_iff in Hiv as (r & <- & Hr). apply Ho, Hr.
    + apply pairs_map. exact Hp.
  - assert (B : forall r, In r rs -> (d <= s_start r)%Qc /\ (last_time r <= f)%Qc).
    { intros r Hin. destruct (choice_In seqs rs r Hc Hin) as (X & HX & HrX). destruct (Hb X r HX HrX) as (? & ? & ? & ?). auto. }
    destruct Hsp as [[(r & Hr & <-) H1] [(q & Hq & <-) H2]].
    destruct (dmax_spec (map iv_of rs) d) as (_ & D1 & D2). destruct (fmin_spec (map iv_of rs) f) as (_ & F1 & F2). split.
    + apply Qcle_antisym; [apply (D1 (iv_of r)), in_map, Hr|]. destruct D2 as [E|(iv & Hiv & E)].
      * rewrite E. apply B, Hr.
      * apply in_map_iff in Hiv as (r2 & <- & Hr2). rewrite E. apply H1, Hr2.
    + apply Qcle_antisym; [|apply (F1 (iv_of q)), in_map, Hq]. destruct F2 as [E|(iv & Hiv & E)].
      * rewrite E. apply B, Hq.
      * apply in_map_iff in Hiv as (r2 & <- & Hr2). rewrite E. apply H2, Hr2.
Qed.
Lemma span_lt_In (seqs : list sigset) d f D F rs : fine seqs -> bounds seqs d f ->
  choice seqs rs -> span rs D F -> (D < F)%Qc -> In (D, F) (common' d f (map ivs seqs)).
Proof.
  intros Hf Hb Hc Hsp Hlt. pose proof Hsp as [[_ H1] [_ H2]].
  assert (G : forall r r', In r rs -> In r' rs -> (s_start r < last_time r')%Qc).
  { intros r r' Hr Hr'. apply (Qcle_lt_trans _ _ _ (H1 r Hr)), (Qclt_le_trans _ _ _ Hlt), H2, Hr'. }
  apply (span_In seqs d f D F rs Hf Hb Hc Hsp).
  - apply pairs_all. intros; split; auto.
  - intros r Hr. destruct (choice_In seqs rs r Hc Hr) as (X & HX & HrX). destruct (Hb X r HX HrX) as (B1 & _ & _ & B2).
    split; [exact (Qcle_lt_trans _ _ _ B1 (G r r Hr Hr))|exact (Qclt_le_trans _ _ _ (G r r Hr Hr) B2)].
Qed.
Lemma overlap_In (seqs : list sigset) d f D F rs : fine seqs -> bounds seqs d f -> 2 <= length seqs ->
  choice seqs rs -> span rs D F -> overlapping rs -> In (D, F) (common' d f (map ivs seqs)).
Proof.
  intros Hf Hb Hl Hc Hsp Ho. apply (span_In seqs d f D F rs Hf Hb Hc Hsp Ho).
  assert (E : length rs = length seqs).
  { clear -Hc. induction Hc; simpl; congruence. }
  rewrite <- E in Hl. intros r Hr.
  assert (G : exists r', In r' rs /\ (s_start r' < last_time r)%Qc /\ (s_start r < last_time r')%Qc).
  { clear -Hl Ho Hr. unfold overlapping in Ho. destruct rs as [|a [|b rs]]; simpl in Hl; try lia.
    inversion Ho as [|? ? H1 H2]; subst. destruct Hr as [<-|Hr].
    - exists b. rewrite Forall_forall in H1. specialize (H1 b (or_introl eq_refl)). simpl. tauto.
    - exists a. rewrite Forall_forall in H1. specialize (H1 r Hr). simpl; tauto. }
  destruct G as (r' & Hr' & G1 & G2).
  destruct (choice_In seqs rs r' Hc Hr') as (X & HX & HrX). destruct (Hb X r' HX HrX) as (B1 & _ & _ & B2).
  split; [exact (Qcle_lt_trans _ _ _ B1 G1)|exact (Qclt_le_trans _ _ _ G2 B2)].
Qed.
End MergeSet.
