(** Groups of tags. *)
From Coq Require Import QArith Qcanon.
From Verif Require Import Base BaseLemmas SliceLemmas Arith OrdLaws QcLemmas TagsModel SpecTags TagsProofs
  SyncModel SetModel SpecSet SetProofs SpecSelect SpecTime SpecConsec
  SpecMerge MergeProofs GlobModel InvModel SpecInv GlobProofs InvProofs PackProofs.
Open Scope nat_scope.

Section Remote.
Context {V K : Type} (kone : K).
Notation sigset := (@sigset QA V K).

Lemma filter_good (inv i : list sigset) pats : (forall X, In X inv -> good X) -> inv_filter kone inv pats = Ok i ->
  forall Y, In Y i -> good Y /\ origin inv Y.
Proof. intros G H Y HY. destruct (inv_channels kone inv i _ G H Y HY) as (X & _ & _ & GY & OY). auto. Qed.

Lemma reads_get (t : tags) k l : tags_valid t -> (t_get t k = Ok l <-> reads t k l).
Proof.
  intros W. unfold t_get, reads. split.
  - destruct (dget k (t_dict t)) eqn:E; [|discriminate]. intros [= <-]. apply dget_In, E.
  - intros H. destruct (dget k (t_dict t)) as [l'|] eqn:E.
    + apply dget_In in E. simpl. f_equal. assert (N := tv_unique _ W). clear W. induction (t_dict t) as [|[k0 l0] d IH]; [destruct H|].
      simpl in N. inversion N as [|? ? N1 N2]; subst. destruct H as [[= -> ->]|H], E as [E|E].
      * congruence.
      * destruct N1. apply (in_map fst) in E. exact E.
      * injection E as -> ->. destruct N1. apply (in_map fst) in H. exact H.
      * auto.
    + apply dget_None in E. destruct E. apply (in_map fst) in H. exact H.
Qed.

Lemma nth_concat_places (tags : list string) (ls : list (list nat)) (P : string -> list nat -> Prop) : Forall2 P tags ls ->
  forall p c, nth_error (concat ls) p = Some c -> exists t q l, nth_error (places tags (map (@length nat) ls)) p = Some (t, q) /\ P t l /\ nth_error l q = Some c.
Proof.
  induction 1 as [|t l tags ls H F IH]; intros p c; simpl; [destruct p; discriminate|]. intros Hc.
  unfold places. simpl. destruct (Nat.lt_ge_cases p (length l)) as [Hp|Hp].
  - rewrite nth_error_app1 in Hc by exact Hp. exists t, p, l. split; [|auto]. rewrite nth_error_app1 by (rewrite map_length, seq_length; exact Hp).
    rewrite nth_error_map, nth_error_seq, (proj2 (Nat.ltb_lt _ _) Hp). reflexivity.
  - rewrite nth_error_app2 in Hc by exact Hp. destruct (IH _ _ Hc) as (t' & q & l' & H1 & H2). exists t', q, l'. split; [|exact H2].
    rewrite nth_error_app2; rewrite map_length, seq_length; [|exact Hp]. exact H1.
Qed.

Lemma entries_nat l : entries (RTuple (map Z.of_nat l)) = map Z.of_nat l.
Proof. reflexivity. Qed.

Theorem group_spec (inv : list sigset) order name tags Y : (forall X, In X inv -> good X) -> extract_group kone order inv (name, tags) = Ok Y ->
  (~ In name special_names -> good Y) /\ ss_signals Y <> [] /\
  (exists sizes, Forall2 (fun t n => exists X, In X inv /\ tag_size X t n) tags sizes /\ tag_size Y name (list_sum sizes) /\
    forall p g' j v, records Y name p g' -> nth_error (g_vals g') j = Some v ->
      exists t q, nth_error (places tags sizes) p = Some (t, q) /\ comes_from inv t q g' j v) /\
  (forall k p g' j v, k <> name -> records Y k p g' -> nth_error (g_vals g') j = Some v -> comes_from inv k p g' j v) /\
  (forall k n, k <> name -> tag_size Y k n -> exists X, In X inv /\ tag_size X k n) /\
  (forall t, In t tags -> exists n, tag_size Y t n).
Proof.
  intros G H. unfold extract_group in H. cbn [fst snd] in H. apply bind_ok in H as (i & Hi & H). apply bind_ok in H as (sig & Hs & H).
  apply bind_ok in H as (ls & Hl & H). apply bind_ok in H as (t' & Ht & [= <-]). apply mapM_Forall2 in Hl.
  pose proof (filter_good inv i _ G Hi) as Gi.
  destruct (pack_tags kone i order sig (fun X HX => proj1 (Gi X HX)) Hs) as [[_ E]|(R & TS & TO)].
  { exfalso. destruct tags as [|t tags]; [inversion Hl; subst; simpl in Ht; unfold t_set in Ht; apply bind_ok in Ht as (? & _ & Ht); discriminate|]. inversion Hl as [|? l ? ? El]; subst. unfold t_get in El. rewrite E in El. discriminate. }
  assert (GS : good sig).
  { destruct (pack_inv kone i order sig (fun X HX => proj1 (Gi X HX)) Hs) as [[E _]|(sigs & J & _ & HS & HJ & HY)]; [congruence|].
    destruct (join_good kone sigs J (fun Z HZ => proj1 (HS Z HZ)) HJ) as [GJ _]. exact (mcr_good kone J sig GJ HY). }
  assert (WT : tags_valid (ss_tags sig)) by apply (gd_wf _ GS).
  pose proof (valid_set _ _ _ _ WT Ht) as [WT' En]. pose proof (set_effect _ _ _ _ WT Ht) as ((l0 & E0 & El0 & _) & Eo & _).
  rewrite entries_nat in E0. assert (l0 = concat ls) by (clear - E0; revert E0; generalize (concat ls); induction l0 as [|x l IH]; intros [|y m] E; try discriminate; [reflexivity|]; injection E as E1 E; apply Nat2Z.inj in E1; subst; f_equal; auto).
  subst l0. set (Y := mkSet (ss_signals sig) t') in *. change t' with (ss_tags Y) in WT'.
  assert (RN : forall l, reads (ss_tags Y) name l <-> l = concat ls).
  { intros l. rewrite <- (reads_get _ _ _ WT'). simpl. rewrite El0. split; [intros [= <-]; reflexivity|intros ->; reflexivity]. }
  assert (RO : forall k l, k <> name -> (reads (ss_tags Y) k l <-> reads (ss_tags sig) k l)).
  { intros k l Hk. rewrite <- (reads_get _ _ _ WT'), <- (reads_get _ _ _ WT). simpl. destruct (Eo k Hk) as [-> _]. reflexivity. }
  assert (C : forall k p g' j v, records sig k p g' -> nth_error (g_vals g') j = Some v -> comes_from inv k p g' j v).
  { intros k p g' j v Hg Hv. destruct (pack_samples kone i order sig (fun X HX => proj1 (Gi X HX)) Hs k p g' j v Hg Hv) as (X & g & a & n & HX & H1 & H2 & H3 & H4 & H5).
    destruct (proj2 (proj2 (Gi X HX)) k p (g_rate g') (seg_time g a) v) as (X' & HX' & g1 & a1 & K1 & K2 & K3 & K4); [exists g, a; auto|].
    exists X', g1, a1, n. rewrite K4. auto 10. }
  assert (TO' : forall k n, tag_size sig k n -> exists X, In X inv /\ tag_size X k n).
  { intros k n Hk. destruct (TO k n Hk) as (X & HX & Hx). apply (Gi X HX), Hx. }
  split; [|split; [exact R|split; [|split; [|split]]]].
  - intros Hname. destruct (gd_wf _ GS). split; [split; simpl; try assumption| |apply (gd_runs _ GS)].
    + intros s Hs'. simpl in En. rewrite En. apply ws_chan, Hs'.
    + intros k l Hl'. destruct (string_dec k name) as [->|D]; [exact Hname|]. apply (RO k l D) in Hl'. exact (gd_plain _ GS k l Hl').
  - exists (map (@length nat) ls). split; [|split].
    + clear - Hl TO' WT. induction Hl as [|t l tags ls E F IH]; simpl; constructor; [|exact IH]. apply TO'. exists l. split; [apply (reads_get _ _ _ WT), E|reflexivity].
    + exists (concat ls). split; [apply RN; reflexivity|]. clear. induction ls as [|l ls IH]; simpl; [reflexivity|]. rewrite app_length, IH. reflexivity.
    + intros p g' j v (s & Hs' & l & c & Hl' & Hc & Hseg) Hv. apply RN in Hl' as ->.
      destruct (nth_concat_places tags ls _ Hl p c Hc) as (t & q & l & H1 & H2 & H3). exists t, q. split; [exact H1|]. apply (C t q g' j v); [|exact Hv].
      exists s. split; [exact Hs'|]. exists l, c. split; [apply (reads_get _ _ _ WT), H2|]. auto.
  - intros k p g' j v Hk (s & Hs' & l & c & Hl' & Hc) Hv. apply (RO k l Hk) in Hl'. apply (C k p g' j v); [|exact Hv]. exists s. split; [exact Hs'|]. exists l, c. auto.
  - intros k n Hk (l & Hl' & En'). apply (RO k l Hk) in Hl'. apply TO'. exists l. auto.
  - intros t Hin. destruct (string_dec t name) as [->|D]; [exists (length (concat ls)), (concat ls); split; [apply RN; reflexivity|reflexivity]|].
    destruct (Forall2_In_l' _ _ _ _ Hl Hin) as (l & _ & E). exists (length l), l. split; [|reflexivity]. apply (RO t l D), (reads_get _ _ _ WT), E.
Qed.

Lemma from_taken (inv : list sigset) k p g j v : comes_from inv k p g j v -> taken inv k p (g_rate g) v.
Proof. intros (X & g0 & i & n & H1 & H2 & H3 & H4 & _). exists X, g0, i. auto. Qed.

(** a tag that matches a pattern and has channels is kept by [filter] *)
Lemma filter_keeps (inv i : list sigset) pats k X n : (forall X, In X inv -> good X) -> inv_filter kone inv pats = Ok i ->
  In X inv -> tag_size X k n -> (exists p, In p pats /\ shell_match p k) -> exists Y m, In Y i /\ tag_size Y k m.
Proof.
  intros G H HX (l & Hl & En) Hp. apply inv_filter_spec in H; [|intros Z HZ; apply (G Z HZ)|intros Z HZ; apply (G Z HZ)].
  assert (l <> []) by (apply (tv_nonempty (ss_tags X)) with k; [apply (gd_wf _ (G X HX))|exact Hl]). destruct l as [|c l]; [congruence|].
  destruct (kept_In_l _ _ _ _ X H HX) as (Y & HY & (cs & _ & Hcs & _ & HS & _)).
  { exists k, (c :: l), c. simpl; auto. }
  exists Y, (length (c :: l)). split; [exact HY|]. apply HS. exists (c :: l). split; [exact Hl|]. split; [reflexivity|]. intros x Hx. apply Hcs. exists k, (c :: l). simpl; auto.
Qed.

Theorem groups_spec (rorder : list sigset -> list (num QA)) (inv : list sigset) groups out : (forall X, In X inv -> good X) ->
  extract_groups kone rorder inv groups = Ok out -> Forall2 (fun g Y => ss_signals Y <> [] /\
  (exists sizes, Forall2 (fun t n => exists X, In X inv /\ tag_size X t n) (snd g) sizes /\ tag_size Y (fst g) (list_sum sizes) /\
    forall p g' j v, records Y (fst g) p g' -> nth_error (g_vals g') j = Some v ->
      exists t q, nth_error (places (snd g) sizes) p = Some (t, q) /\ comes_from inv t q g' j v) /\
  (forall k p g' j v, k <> fst g -> records Y k p g' -> nth_error (g_vals g') j = Some v -> comes_from inv k p g' j v)) groups out.
Proof.
  intros G H. unfold extract_groups in H. apply mapM_Forall2 in H. eapply Forall2_impl; [|exact H]. intros [name tags] Y HY.
  apply bind_ok in HY as (i & _ & HY). destruct (group_spec inv _ name tags Y G HY) as (_ & H1 & H2 & H3 & _). auto.
Qed.
End Remote.
