(** A signal set merged with nothing: proofs (exact arithmetic). *)
From Coq Require Import QArith Qcanon.
From Verif Require Import Base BaseLemmas SliceLemmas Arith OrdLaws QcLemmas TagsModel SpecTags TagsProofs
  SyncModel SetModel SpecSet SetProofs SpecSelect TrackProofs SelectProofs OrderProofs JoinProofs JoinOk
  SpecTime ExtractProofs ExtractSet ExcludeProofs ExtractSync SpecMerge MergeCommon MergeProofs MergeSet MergeRuns MergeOk.
Open Scope nat_scope.

Section Alone.
Context {V K : Type} (kone : K).
Notation sync := (sync QA V K).
Notation sigset := (@sigset QA V K).

Lemma run_strict (r : sync) : pos (s_rate r) -> 2 <= s_size r -> (s_start r < last_time r)%Qc.
Proof.
  intros Hr Hs. apply Qcnot_le_lt. intros H. rewrite <- (sample_0 r) in H. unfold last_time in H. apply sample_mono in H; [lia|exact Hr].
Qed.

Lemma merge_one_run (X : sigset) r : wf_set X -> positive_rates X -> plain (ss_tags X) -> In r (ss_signals X) -> 2 <= s_size r ->
  merge_one (A := QA) kone [X] (s_start r, last_time r) = Ok (Some r).
Proof.
  intros W P Hp Hr Hn. pose proof (P r Hr) as Pr. pose proof (ws_sync X W r Hr) as Okr.
  assert (Hf : fine [X]) by (intros Y [<-|[]]; auto). assert (Hg : good [X]) by (intros Y [<-|[]]; auto).
  destruct (merge_one_total kone [X] (s_start r) (last_time r) Hf Hg) as (ls & Hls & E). etransitivity; [exact E|]. clear E.
  inversion Hls as [|? l ? ? Hc Hnil]; subst. inversion Hnil; subst.
  assert (Full : iscut (within (s_start r) (last_time r)) r 0 (s_size r)).
  { split; [lia|]. intros j Hj. split; [|lia]. intros _. apply within_iff. apply (sample_range r j Pr Hj). }
  destruct (cover_single X (s_start r) (last_time r) r l W P Hc Hr) as (r' & -> & i & n & -> & Hi & _).
  { split; apply Qcle_refl. }
  { rewrite (count_iscut _ _ _ _ Full). exact Hn. }
  destruct (iscut_unique _ r i n 0 (s_size r) Hi Full) as [E1 E2]. rewrite E2 by lia. rewrite E1, (cut_full r Okr).
  unfold mone. cbn [forallb length Nat.eqb andb check bind concat app map dedup memb existsb]. 
  replace (neqb QA (s_start r) (s_start r)) with true by (symmetry; apply Qceqb_eq; reflexivity). cbn [andb check bind]. rewrite !app_nil_r.
  rewrite (sync_new_self kone r Okr). reflexivity.
Qed.

Lemma loop_all d f (l : list (Qc * Qc)) : (forall a b, In (a, b) l -> (d <= a)%Qc /\ (a < b)%Qc /\ (b <= f)%Qc) -> loop d f [] l = l.
Proof.
  induction l as [|[a b] l IH]; intros H; [reflexivity|]. cbn [loop]. destruct (H a b (or_introl eq_refl)) as (H1 & H2 & H3).
  destruct (leb_cases b d) as [[_ G]|[-> _]]; [exfalso; apply (Qclt_not_le _ _ H2); eapply Qcle_trans; eassumption|].
  destruct (leb_cases f a) as [[_ G]|[-> _]]; [exfalso; apply (Qclt_not_le _ _ H2); eapply Qcle_trans; eassumption|].
  rewrite common_nil, IH by (intros; apply H; right; assumption). cbn [app]. f_equal. f_equal.
  - destruct (pmax_max d a) as (M1 & M2 & [M3|M3]); rewrite M3; [|reflexivity]. apply Qcle_antisym; [exact H1|]. rewrite <- M3. exact M2.
  - destruct (pmin_min f b) as (M1 & M2 & [M3|M3]); rewrite M3; [|reflexivity]. apply Qcle_antisym; [|exact H3]. rewrite <- M3. exact M2.
Qed.

Theorem merge_alone (X : sigset) : wf_set X -> positive_rates X -> plain (ss_tags X) -> ss_signals X <> [] -> (forall r, In r (ss_signals X) -> 2 <= s_size r) ->
  merge kone X [] = Ok X.
Proof.
  intros W P Hp Hne Hsz.
  assert (Hf : fine [X]) by (intros Y [<-|[]]; auto). assert (Hg : good [X]) by (intros Y [<-|[]]; auto).
  assert (Hnd : NoDup (names [X])).
  { unfold names. cbn. rewrite app_nil_r. apply (tv_unique _ (ws_tags X W)). }
  destruct (merge_prefix kone [X] Hg ltac:(discriminate) Hnd) as (t & d & f & Ht & Pt & Vt & Nt & Hb & E); [intros Y [<-|[]]; exact Hne|].
  unfold merge. rewrite E. clear E. cbn [map]. rewrite common_cons, loop_all.
  2:{ intros a b Hab. apply in_map_iff in Hab as (r & Er & Hr). injection Er as <- <-. destruct (Hb X r (or_introl eq_refl) Hr) as (B1 & _ & _ & B4).
      split; [exact B1|]. split; [apply run_strict; [apply P, Hr|apply Hsz, Hr]|exact B4]. }
  assert (M : mapM (merge_one (A := QA) kone [X]) (ivs X) = Ok (map Some (ss_signals X))).
  { unfold ivs. assert (G : forall l, (forall r, In r l -> In r (ss_signals X)) -> mapM (merge_one (A := QA) kone [X]) (map (fun r : sync => (s_start r, last_time r)) l) = Ok (map Some l)).
    { induction l as [|r l IH]; intros Hl; [reflexivity|]. cbn [map mapM]. rewrite (merge_one_run X r W P Hp (Hl r (or_introl eq_refl)) (Hsz r (Hl r (or_introl eq_refl)))).
      cbn [bind]. rewrite IH by (intros; apply Hl; right; assumption). reflexivity. }
    apply G. auto. }
  rewrite M. cbn [bind]. unfold finish.
  assert (S : forall l : list sync, somes (map Some l) = l) by (induction l as [|x l IH]; [reflexivity|cbn; rewrite IH; reflexivity]). rewrite S.
  assert (Et : t = ss_tags X).
  { apply tags_new_dict in Ht; [|rewrite merge_tags_keys; exact Hnd].
    assert (Ed : t_dict t = t_dict (ss_tags X)).
    { rewrite Ht. unfold merge_tags. cbn [shifts combine map concat fst snd]. rewrite app_nil_r. unfold store. rewrite map_map.
      rewrite <- (map_id (t_dict (ss_tags X))) at 2. apply map_ext. intros [k l]. cbn [fst snd entries]. f_equal. rewrite map_map.
      rewrite <- (map_id l) at 2. apply map_ext. intros i. rewrite Nat2Z.id. lia. }
    assert (En : t_n t = t_n (ss_tags X)).
    { rewrite Nt. cbn. rewrite (good_channels [X] X Hg (or_introl eq_refl)). lia. }
    destruct t, (ss_tags X). cbn in *. congruence. }
  subst t. rewrite chain_set_ok.
  - destruct (set_tags_obj_ok (ss_signals X) (ss_tags X) (ws_tags X W) Hp) as (t' & T1 & _ & T2).
    + right. destruct (ss_signals X) as [|s l] eqn:Es; [congruence|]. assert (Hs : In s (ss_signals X)) by (rewrite Es; left; reflexivity).
      exists s. split; [reflexivity|]. pose proof (ws_chan X W s Hs) as G. split; [exact G|]. rewrite <- G.
      pose proof (so_chan _ (ws_sync X W s Hs)). destruct (s_data s); [congruence|cbn; lia].
    + rewrite T1, (T2 Hne). destruct X; reflexivity.
  - intros s Hs. apply (ws_chan X W s Hs).
  - exact P.
  - intros s Hs. apply Qclt_le_weak, run_strict; [apply P, Hs|apply Hsz, Hs].
  - apply wf_before, W.
Qed.
End Alone.
