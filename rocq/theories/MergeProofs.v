(** Merging signal sets: proofs (exact arithmetic). *)
From Coq Require Import QArith Qcanon.
From Verif Require Import Base BaseLemmas SliceLemmas Arith OrdLaws QcLemmas TagsModel SpecTags TagsProofs
  SyncModel SetModel SpecSet SetProofs SpecSelect TrackProofs SelectProofs OrderProofs JoinProofs JoinOk
  SpecTime ExtractProofs ExtractSet ExcludeProofs ExtractSync SpecMerge MergeCommon.
Open Scope nat_scope.

(** *** offsets in concatenations *)
Definition off {B} (ls : list (list B)) (i : nat) : nat := list_sum (map (@length B) (firstn i ls)).
Lemma concat_off {B} (ls : list (list B)) : forall i l c, nth_error ls i = Some l -> c < length l ->
  nth_error (concat ls) (off ls i + c) = nth_error l c.
Proof.
  induction ls as [|l0 ls IH]; intros i l c Hi Hc; [destruct i; discriminate|]. destruct i as [|i]; simpl in Hi.
  - injection Hi as ->. simpl. apply nth_error_app1, Hc.
  - unfold off. simpl. rewrite nth_error_app2 by lia. replace (length l0 + _ + c - length l0) with (off ls i + c) by (unfold off; lia).
    apply IH; assumption.
Qed.

Section Merge.
Context {V K : Type} (kone : K).
Notation sync := (sync QA V K).
Notation sigset := (@sigset QA V K).
Notation seg := (@seg QA V K).

Lemma shifts_nth (seqs : list sigset) : forall c i X, nth_error seqs i = Some X ->
  nth_error (shifts c seqs) i = Some (c + list_sum (map nb_channels (firstn i seqs))).
Proof.
  induction seqs as [|Y seqs IH]; intros c i X Hi; [destruct i; discriminate|]. destruct i as [|i]; simpl in *.
  - f_equal. lia.
  - rewrite (IH _ i X Hi). f_equal. lia.
Qed.
Lemma shifts_length (seqs : list sigset) : forall c, length (shifts c seqs) = length seqs.
Proof. induction seqs as [|Y seqs IH]; intros c; simpl; [reflexivity|]. rewrite IH. reflexivity. Qed.

(** *** tags of the merged set *)
Definition names (seqs : list sigset) : list string := concat (map (fun s => dkeys (t_dict (ss_tags s))) seqs).
Lemma merge_tags_keys (seqs : list sigset) : dkeys (merge_tags seqs) = names seqs.
Proof.
  unfold merge_tags, names. generalize 0 as c. induction seqs as [|X seqs IH]; intros c; [reflexivity|].
  simpl. unfold dkeys in *. rewrite map_app, map_map. f_equal. apply IH.
Qed.
Lemma store_In d k l : In (k, l) (store d) <-> exists v, In (k, v) d /\ l = map Z.to_nat (entries v).
Proof.
  unfold store. rewrite in_map_iff. split.
  - intros ([k' v] & E & H). injection E as <- <-. eauto.
  - intros (v & H & ->). exists (k, v). auto.
Qed.
Lemma combine_In_nth {B C} (l1 : list B) (l2 : list C) x y : In (x, y) (combine l1 l2) <->
  exists i, nth_error l1 i = Some x /\ nth_error l2 i = Some y.
Proof.
  revert l2. induction l1 as [|a l1 IH]; intros l2; simpl.
  - split; [intros []|intros (i & H & _); destruct i; discriminate].
  - destruct l2 as [|b l2]; simpl; [split; [intros []|intros (i & _ & H); destruct i; discriminate]|]. rewrite IH. split.
    + intros [E|(i & H)]; [injection E as -> ->; exists 0; auto|exists (S i); auto].
    + intros ([|i] & H1 & H2); simpl in *; [left; congruence|right; exists i; auto].
Qed.
Lemma merge_tags_In (seqs : list sigset) k v : In (k, v) (merge_tags seqs) <->
  exists i X l, nth_error seqs i = Some X /\ reads (ss_tags X) k l /\
    v = RList (map (fun j => Z.of_nat (j + list_sum (map nb_channels (firstn i seqs)))) l).
Proof.
  unfold merge_tags. rewrite in_concat. split.
  - intros (x & Hx & Hkv). apply in_map_iff in Hx as ([c X] & <- & Hx). simpl in Hkv. apply in_map_iff in Hkv as ([k' l] & E & Hl).
    injection E as <- <-. apply combine_In_nth in Hx as (i & H1 & H2). rewrite (shifts_nth seqs 0 i X H2) in H1. injection H1 as <-.
    exists i, X, l. auto.
  - intros (i & X & l & Hi & Hl & ->). eexists. split; [apply in_map_iff; exists (list_sum (map nb_channels (firstn i seqs)), X); split; [reflexivity|]|].
    + apply combine_In_nth. exists i. split; [apply (shifts_nth seqs 0 i X Hi)|exact Hi].
    + simpl. apply in_map_iff. exists (k, l). auto.
Qed.
Lemma merged_reads (seqs : list sigset) n t : NoDup (names seqs) -> tags_new n (merge_tags seqs) = Ok t ->
  forall k l', reads t k l' <-> exists i X l, nth_error seqs i = Some X /\ reads (ss_tags X) k l /\
    l' = map (fun j => j + list_sum (map nb_channels (firstn i seqs))) l.
Proof.
  intros Hnd H k l'. apply tags_new_dict in H; [|rewrite merge_tags_keys; exact Hnd]. unfold reads at 1. rewrite H, store_In. split.
  - intros (v & Hv & ->). apply merge_tags_In in Hv as (i & X & l & Hi & Hl & ->). exists i, X, l. split; [exact Hi|]. split; [exact Hl|].
    simpl. rewrite map_map. apply map_ext. intros; lia.
  - intros (i & X & l & Hi & Hl & ->). eexists. split; [apply merge_tags_In; exists i, X, l; auto|].
    simpl. rewrite map_map. apply map_ext. intros; lia.
Qed.

Lemma fold_channels (seqs : list sigset) : forall c, fold_left (fun c s => c + nb_channels s) seqs c = c + list_sum (map nb_channels seqs).
Proof. induction seqs as [|X seqs IH]; intros c; simpl; [lia|]. rewrite IH. lia. Qed.
Lemma list_sum_firstn (f : sigset -> nat) seqs : forall i X, nth_error seqs i = Some X ->
  list_sum (map f (firstn i seqs)) + f X <= list_sum (map f seqs).
Proof.
  induction seqs as [|Y seqs IH]; intros i X Hi; [destruct i; discriminate|]. destruct i as [|i]; simpl in *.
  - injection Hi as ->. lia.
  - specialize (IH i X Hi). lia.
Qed.

Definition good (seqs : list sigset) : Prop := forall X, In X seqs -> wf_set X /\ plain (ss_tags X).
Lemma good_channels seqs X : good seqs -> In X seqs -> nb_channels X = t_n (ss_tags X).
Proof. intros H HX. destruct (H X HX) as [W P]. apply nb_channels_wf; [exact W|]. apply plain_no; [exact P|simpl; auto 10]. Qed.

Lemma merge_tags_ok (seqs : list sigset) : good seqs -> NoDup (names seqs) ->
  exists t, tags_new (Some (Z.of_nat (list_sum (map nb_channels seqs)))) (merge_tags seqs) = Ok t /\
    plain t /\ tags_valid t /\ t_n t = list_sum (map nb_channels seqs).
Proof.
  intros Hg Hnd.
  assert (Hnames : forall k, In k (names seqs) -> ~ In k special_names).
  { intros k Hk. unfold names in Hk. apply in_concat in Hk as (x & Hx & Hk). apply in_map_iff in Hx as (X & <- & HX).
    apply in_map_iff in Hk as ([k' l] & E & Hl). simpl in E; subst k'. apply (proj2 (Hg X HX) k l). exact Hl. }
  destruct (proj2 (tags_new_ok_iff (Some (Z.of_nat (list_sum (map nb_channels seqs)))) (merge_tags seqs)
     ltac:(change (map fst (merge_tags seqs)) with (dkeys (merge_tags seqs)); rewrite merge_tags_keys; intros H; apply (Hnames _ H); simpl; auto 10))) as [t Ht].
  - intros k v Hkv. apply merge_tags_In in Hkv as (i & X & l & Hi & Hl & ->).
    assert (HX : In X seqs) by (eapply nth_error_In; eauto). destruct (Hg X HX) as [W P]. pose proof (ws_tags X W) as Hv. split.
    + intros [->| ->]; apply (P _ _ Hl); simpl; auto 10.
    + split; [eapply tv_names; eauto|]. simpl. split; [intros E; apply map_eq_nil in E; exact (tv_nonempty _ Hv k l Hl E)|].
      intros z Hz. apply in_map_iff in Hz as (c & <- & Hc). pose proof (tv_range _ Hv k l c Hl Hc) as R.
      rewrite <- (good_channels seqs X Hg HX) in R. pose proof (list_sum_firstn nb_channels seqs i X Hi). lia.
  - exists t. split; [exact Ht|]. split; [|split; [eapply tags_new_valid; eauto|apply tags_new_n in Ht; lia]].
    intros k l Hk. apply Hnames. apply (merged_reads seqs _ t Hnd Ht) in Hk as (i & X & l0 & Hi & Hl & _).
    unfold names. apply in_concat. exists (dkeys (t_dict (ss_tags X))). split.
    + apply in_map_iff. exists X. split; [reflexivity|eapply nth_error_In; eauto].
    + apply in_map_iff. exists (k, l0). auto.
Qed.

(** *** one common interval *)
Definition mone (D : Qc) (ls : list (list sync)) : res (option sync) :=
  _ <- check (forallb (fun l => length l =? 1) ls) AssertionError ;;
  let ss := concat ls in
  match dedup (neqb QA) (map s_rate ss) with
  | [rate] =>
      _ <- check (forallb (fun s => neqb QA (s_start s) D) ss) AssertionError ;;
      s <- sync_new kone (concat (map s_data ss)) rate D (Some (concat (map s_cal ss))) ;;
      Ok (Some s)
  | _ => Ok None
  end.
Lemma merge_one_mone (seqs : list sigset) (D F : Qc) (Zs : list sigset) : mapM (fun s : sigset => extract_t (A := QA) kone s D F false) seqs = Ok Zs ->
  merge_one (A := QA) kone seqs (D, F) = mone D (map (@ss_signals QA V K) Zs).
Proof.
  intros H. unfold merge_one. rewrite H. cbn [bind]. unfold mone.
  replace (forallb (fun s : sigset => nb_runs s =? 1) Zs) with (forallb (fun l => length l =? 1) (map (@ss_signals QA V K) Zs)); [reflexivity|].
  clear H. induction Zs as [|Z Zs IH]; [reflexivity|]. simpl. rewrite IH. reflexivity.
Qed.

Definition fine (seqs : list sigset) : Prop := forall X, In X seqs -> wf_set X /\ positive_rates X.

Lemma merge_one_cuts (seqs : list sigset) (D F : Qc) o : fine seqs -> merge_one (A := QA) kone seqs (D, F) = Ok o ->
  exists ls, Forall2 (fun X l => cuts (within D F) (ss_signals X) l) seqs ls /\ mone D ls = Ok o.
Proof.
  intros Hf H. destruct (mapM (fun s : sigset => extract_t (A := QA) kone s D F false) seqs) as [Zs|e] eqn:E.
  - rewrite (merge_one_mone seqs D F Zs E) in H. exists (map (@ss_signals QA V K) Zs). split; [|exact H].
    apply mapM_Forall2 in E. clear H. induction E as [|X Z seqs Zs HZ E IH]; simpl; constructor.
    + destruct (Hf X (or_introl eq_refl)) as [W P]. apply (extract_in_inv kone X D F Z W P HZ).
    + apply IH. intros Y HY. apply Hf. right; exact HY.
  - unfold merge_one in H. rewrite E in H. discriminate.
Qed.
Lemma merge_one_total (seqs : list sigset) (D F : Qc) : fine seqs -> good seqs ->
  exists ls, Forall2 (fun X l => cuts (within D F) (ss_signals X) l) seqs ls /\ merge_one (A := QA) kone seqs (D, F) = mone D ls.
Proof.
  intros Hf Hg. destruct (mapM_ok_exists (fun s : sigset => extract_t (A := QA) kone s D F false) seqs) as [Zs E].
  { intros X HX. destruct (Hf X HX) as [W P]. apply (extract_in_ok kone X D F W P (proj2 (Hg X HX))). }
  exists (map (@ss_signals QA V K) Zs). split; [|apply merge_one_mone, E].
  apply mapM_Forall2 in E. clear Hg. induction E as [|X Z seqs Zs HZ E IH]; simpl; constructor.
  - destruct (Hf X (or_introl eq_refl)) as [W P]. apply (extract_in_inv kone X D F Z W P HZ).
  - apply IH. intros Y HY. apply Hf. right; exact HY.
Qed.

Lemma singles (ls : list (list sync)) : forallb (fun l => length l =? 1) ls = true -> exists rs, ls = map (fun r => [r]) rs.
Proof.
  induction ls as [|l ls IH]; simpl; intros H; [exists []; reflexivity|]. apply andb_true_iff in H as [H1 H2].
  destruct (IH H2) as [rs ->]. apply Nat.eqb_eq in H1. destruct l as [|r [|? ?]]; try discriminate. exists (r :: rs). reflexivity.
Qed.
Lemma concat_singles (rs : list sync) : concat (map (fun r => [r]) rs) = rs.
Proof. induction rs as [|r rs IH]; simpl; [reflexivity|]. rewrite IH. reflexivity. Qed.

(** the run of [X] that covers the window is the one that remains *)
Lemma cover_cut (X : sigset) D F r r' : wf_set X -> positive_rates X -> cuts (within D F) (ss_signals X) [r'] ->
  In r (ss_signals X) -> (s_start r <= D)%Qc -> (F <= last_time r)%Qc ->
  exists i n, r' = cut r i n /\ iscut (within D F) r i n /\ 2 <= n.
Proof.
  intros W P Hc Hr HD HF. destruct (cuts_In _ _ _ r' Hc (or_introl eq_refl)) as (r0 & i & n & Hr0 & Hi & Hn & ->).
  assert (E : r0 = r); [|subst; exists i, n; auto].
  apply In_nth_error in Hr as [a Ha], Hr0 as [b Hb]. destruct (Nat.eq_dec a b) as [->|Hne]; [congruence|exfalso].
  destruct Hi as [Hi1 Hi2].
  assert (W1 : within D F (sample_time r0 (Z.of_nat i)) = true) by (apply Hi2; lia).
  assert (W2 : within D F (sample_time r0 (Z.of_nat (i + 1))) = true) by (apply Hi2; lia).
  apply within_iff in W1 as [W1 _], W2 as [_ W2].
  assert (Pr : pos (s_rate r0)) by (apply P; eapply nth_error_In; eauto).
  assert (L : (sample_time r0 (Z.of_nat i) < sample_time r0 (Z.of_nat (i + 1)))%Qc) by (apply time_mono_lt; [exact Pr|lia]).
  assert (S1 : (s_start r0 <= sample_time r0 (Z.of_nat i))%Qc).
  { rewrite <- (sample_0 r0). apply sample_mono; [exact Pr|lia]. }
  assert (S2 : (sample_time r0 (Z.of_nat (i + 1)) <= last_time r0)%Qc).
  { unfold last_time. apply sample_mono; [exact Pr|lia]. }
  pose proof (wf_before X W) as B. destruct (Nat.lt_total a b) as [Hlt|[->|Hlt]]; [|congruence|].
  - pose proof (StronglySorted_nth _ _ B a b r r0 Hlt Ha Hb) as G. unfold before in G.
    apply (Qclt_not_le _ _ L). apply (Qcle_trans _ F); [exact W2|]. apply (Qcle_trans _ _ _ HF), (Qcle_trans _ _ _ G), S1.
  - pose proof (StronglySorted_nth _ _ B b a r0 r Hlt Hb Ha) as G. unfold before in G.
    apply (Qclt_not_le _ _ L). apply (Qcle_trans _ _ _ S2), (Qcle_trans _ _ _ G), (Qcle_trans _ _ _ HD), W1.
Qed.

(** number of samples of a window that starts on a sample *)
Lemma window_count (r : sync) D F i n : pos (s_rate r) -> iscut (within D F) r i n -> 1 <= n ->
  sample_time r (Z.of_nat i) = D -> (F <= last_time r)%Qc ->
  (D + ZtoQc (Z.of_nat n - 1) / s_rate r <= F)%Qc /\ (F < D + ZtoQc (Z.of_nat n) / s_rate r)%Qc.
Proof.
  intros P [H1 H2] Hn E HF.
  assert (T : forall j, (0 <= j)%Z -> (D + ZtoQc j / s_rate r)%Qc = sample_time r (Z.of_nat i + j)).
  { intros j Hj. rewrite <- E. unfold sample_time. simpl. apply time_shift, P. }
  rewrite !T by lia. split.
  - replace (Z.of_nat i + (Z.of_nat n - 1))%Z with (Z.of_nat (i + (n - 1))) by lia.
    assert (G : within D F (sample_time r (Z.of_nat (i + (n - 1)))) = true) by (apply H2; lia). apply within_iff in G. tauto.
  - destruct (Nat.eq_dec (i + n) (s_size r)) as [Es|Hne].
    + apply (Qcle_lt_trans _ _ _ HF). unfold last_time. apply time_mono_lt; [exact P|lia].
    + apply Qcnot_le_lt. intros G. assert (Hin : i <= i + n < i + n); [|lia]. apply H2; [lia|]. apply within_iff. split.
      * rewrite <- E. apply sample_mono; [exact P|lia].
      * replace (Z.of_nat (i + n)) with (Z.of_nat i + Z.of_nat n)%Z by lia. exact G.
Qed.
Lemma window_count_unique D F r n n' : pos r ->
  (D + ZtoQc (Z.of_nat n - 1) / r <= F)%Qc -> (F < D + ZtoQc (Z.of_nat n) / r)%Qc ->
  (D + ZtoQc (Z.of_nat n' - 1) / r <= F)%Qc -> (F < D + ZtoQc (Z.of_nat n') / r)%Qc -> n = n'.
Proof.
  intros P A1 A2 B1 B2. pose proof (Qcle_lt_trans _ _ _ A1 B2) as G1. pose proof (Qcle_lt_trans _ _ _ B1 A2) as G2.
  apply time_mono_lt in G1; [|exact P]. apply time_mono_lt in G2; [|exact P]. lia.
Qed.

Definition covers (D F : Qc) (r : sync) : Prop := (s_start r <= D)%Qc /\ (F <= last_time r)%Qc.
Definition cutof (D F : Qc) (r r' : sync) : Prop :=
  exists i n, r' = cut r i n /\ iscut (within D F) r i n /\ 2 <= n.

Lemma choice_cuts (seqs : list sigset) rs rs' D F : fine seqs -> choice seqs rs -> Forall (covers D F) rs ->
  Forall2 (fun X l => cuts (within D F) (ss_signals X) l) seqs (map (fun r => [r]) rs') ->
  Forall2 (cutof D F) rs rs'.
Proof.
  intros Hf Hc. revert rs'. induction Hc as [|X r seqs rs Hr Hc IH]; intros rs' Hcov H.
  - inversion H. destruct rs'; [constructor|discriminate].
  - inversion H as [|? ? ? ? H1 H2]; subst. destruct rs' as [|r' rs']; [discriminate|]. simpl in *.
    match goal with E : _ :: _ = _ :: _ |- _ => injection E as -> -> end.
    apply Forall_cons_iff in Hcov as [[C1 C2] Hcov]. destruct (Hf X (or_introl eq_refl)) as [W P]. constructor.
    + exact (cover_cut X D F r r' W P H1 Hr C1 C2).
    + apply IH; [intros Y HY; apply Hf; right; exact HY|exact Hcov|exact H2].
Qed.

(** the shape of a merged run *)
Record merged (D F : Qc) (rs rs' : list sync) (s : sync) : Prop := {
  me_cut : Forall2 (cutof D F) rs rs';
  me_data : s_data s = concat (map s_data rs');
  me_cal : s_cal s = concat (map s_cal rs');
  me_rate : forall r, In r rs' -> s_rate r = s_rate s;
  me_start' : forall r, In r rs' -> s_start r = D;
  me_start : s_start s = D;
  me_ok : sync_ok s
}.
Lemma mone_inv (D : Qc) (ls : list (list sync)) s : mone D ls = Ok (Some s) ->
  exists rs', ls = map (fun r => [r]) rs' /\ s_data s = concat (map s_data rs') /\
    s_cal s = match concat (map s_cal rs') with c :: cs => c :: cs | _ => repeat kone (length (s_data s)) end /\
    (forall r, In r rs' -> s_rate r = s_rate s) /\ (forall r, In r rs' -> s_start r = D) /\
    s_start s = D /\ sync_ok s.
Proof.
  unfold mone. intros H. apply bind_ok in H as ([] & H1 & H). apply check_ok in H1.
  destruct (singles _ H1) as [rs' ->]. rewrite concat_singles in H. exists rs'. split; [reflexivity|].
  destruct (dedup (neqb QA) (map s_rate rs')) as [|rate [|? ?]] eqn:E; try discriminate.
  apply bind_ok in H as ([] & H2 & H). apply check_ok in H2. apply bind_ok in H as (s0 & H3 & H). injection H as <-.
  apply sync_new_inv in H3 as (E1 & E2 & E3 & Hok & E4). rewrite E1. split; [reflexivity|]. split; [exact E4|].
  apply (dedup_all_eq _ Qceqb_eq) in E as [_ E]. split; [|split; [|split; [exact E3|exact Hok]]].
  - intros r Hr. rewrite E2. apply E, in_map, Hr.
  - intros r Hr. rewrite forallb_forall in H2. apply Qceqb_eq, H2, Hr.
Qed.
Lemma concat_length_eq {B C D} (f : D -> list B) (g : D -> list C) (l : list D) : (forall x, In x l -> length (f x) = length (g x)) ->
  length (concat (map f l)) = length (concat (map g l)).
Proof.
  induction l as [|x l IH]; intros H; [reflexivity|]. simpl. rewrite !app_length, (H x (or_introl eq_refl)), IH; [reflexivity|].
  intros y Hy. apply H. right; exact Hy.
Qed.
Lemma off_eq {B C D} (f : D -> list B) (g : D -> list C) (l : list D) i : (forall x, In x l -> length (f x) = length (g x)) ->
  off (map f l) i = off (map g l) i.
Proof.
  intros H. unfold off. f_equal. rewrite <- !firstn_map, !map_map. f_equal. apply map_ext_in. exact H.
Qed.

Lemma Forall2_In_r' {B C} (R : B -> C -> Prop) l l' y : Forall2 R l l' -> In y l' -> exists x, In x l /\ R x y.
Proof.
  induction 1 as [|a b l l' H1 H2 IH]; [intros []|]. intros [<-|Hy]; [exists a; simpl; auto|].
  destruct (IH Hy) as (x & Hx & G). exists x. simpl; auto.
Qed.
Lemma Forall2_In_l' {B C} (R : B -> C -> Prop) l l' x : Forall2 R l l' -> In x l -> exists y, In y l' /\ R x y.
Proof.
  induction 1 as [|a b l l' H1 H2 IH]; [intros []|]. intros [<-|Hy]; [exists b; simpl; auto|].
  destruct (IH Hy) as (y & Hz & G). exists y. simpl; auto.
Qed.
Lemma Forall2_nth' {B C} (R : B -> C -> Prop) l l' : Forall2 R l l' -> forall i x, nth_error l i = Some x -> exists y, nth_error l' i = Some y /\ R x y.
Proof.
  induction 1 as [|a b l l' H1 H2 IH]; intros [|i] x Hi; try discriminate; simpl in *; [injection Hi as <-; eauto|auto].
Qed.

Lemma choice_In (seqs : list sigset) rs r : choice seqs rs -> In r rs -> exists X, In X seqs /\ In r (ss_signals X).
Proof. intros H Hr. destruct (Forall2_In_r' _ _ _ _ H Hr) as (X & H1 & H2). eauto. Qed.

Lemma cutof_ok D F (r r' : sync) : sync_ok r -> cutof D F r r' -> sync_ok r'.
Proof. intros H (i & n & -> & [Hi _] & _). apply cut_ok; assumption. Qed.

Lemma merge_one_merged (seqs : list sigset) rs D F s : fine seqs -> choice seqs rs -> Forall (covers D F) rs ->
  merge_one (A := QA) kone seqs (D, F) = Ok (Some s) -> exists rs', merged D F rs rs' s.
Proof.
  intros Hf Hc Hcov H. destruct (merge_one_cuts seqs D F _ Hf H) as (ls & Hls & Hm).
  destruct (mone_inv D ls s Hm) as (rs' & -> & H1 & H2 & H3 & H4 & H5 & H6). exists rs'.
  pose proof (choice_cuts seqs rs rs' D F Hf Hc Hcov Hls) as Hcut. split; auto.
  destruct (concat (map s_cal rs')) as [|c cs] eqn:E; [exfalso|exact H2].
  assert (L : length (concat (map s_data rs')) = length (concat (map s_cal rs'))).
  { apply concat_length_eq. intros r' Hr'. destruct (Forall2_In_r' _ _ _ _ Hcut Hr') as (r & Hr & Hrr).
    destruct (choice_In seqs rs r Hc Hr) as (X & HX & HrX). symmetry. apply so_cal.
    eapply cutof_ok; [|exact Hrr]. apply (ws_sync X (proj1 (Hf X HX)) r HrX). }
  rewrite E in L. apply (so_chan _ H6). rewrite H1. destruct (concat (map s_data rs')); [reflexivity|discriminate].
Qed.

Lemma run_channels (X : sigset) r : wf_set X -> In r (ss_signals X) -> nb_channels X = length (s_data r).
Proof.
  intros W Hr. unfold nb_channels, nb_channels_of. destruct (ss_signals X) as [|r0 l] eqn:E; [destruct Hr|].
  rewrite !(ws_chan X W); [reflexivity|rewrite E; exact Hr|rewrite E; left; reflexivity].
Qed.

Lemma merged_off (seqs : list sigset) rs rs' D F i : fine seqs -> choice seqs rs -> Forall2 (cutof D F) rs rs' ->
  off (map s_data rs') i = list_sum (map nb_channels (firstn i seqs)).
Proof.
  intros Hf Hc. revert rs' i. induction Hc as [|X r seqs rs Hr Hc IH]; intros rs' i H.
  - inversion H. destruct i; reflexivity.
  - inversion H as [|? r' ? rs'' H1 H2]; subst. destruct i as [|i]; [reflexivity|].
    unfold off in *. simpl. rewrite (IH (fun Y HY => Hf Y (or_intror HY)) rs'' i H2). f_equal.
    rewrite (run_channels X r (proj1 (Hf X (or_introl eq_refl))) Hr). destruct H1 as (a & n & -> & _). simpl. apply map_length.
Qed.

Lemma merged_channels (seqs : list sigset) rs rs' D F s i X r c g : fine seqs -> choice seqs rs -> merged D F rs rs' s ->
  nth_error seqs i = Some X -> nth_error rs i = Some r -> is_seg r c g ->
  exists g', is_seg s (c + list_sum (map nb_channels (firstn i seqs))) g' /\ restricted (within D F) g g'.
Proof.
  intros Hf Hc M HX Hr Hg. destruct (Forall2_nth' _ _ _ (me_cut _ _ _ _ _ M) i r Hr) as (r' & Hr' & a & n & Er' & Ha & Hn).
  assert (HXr : In r (ss_signals X)).
  { destruct (Forall2_nth' _ _ _ Hc i X HX) as (r2 & G1 & G2). congruence. }
  destruct (Hf X (nth_error_In _ _ HX)) as [W P].
  assert (Hall : forall x, In x rs' -> length (s_data x) = length (s_cal x)).
  { intros x Hx. destruct (Forall2_In_r' _ _ _ _ (me_cut _ _ _ _ _ M) Hx) as (y & Hy & Hxy).
    destruct (choice_In seqs rs y Hc Hy) as (X2 & HX2 & Hy2). symmetry. apply so_cal.
    eapply cutof_ok; [|exact Hxy]. apply (ws_sync X2 (proj1 (Hf X2 HX2)) y Hy2). }
  exists (cutseg g a n). split.
  - pose proof (cut_seg r a n c g Hg) as (S1 & S2 & S3 & S4). rewrite <- Er' in *.
    assert (Hin : In r' rs') by (eapply nth_error_In; eauto).
    rewrite (Nat.add_comm c). rewrite <- (merged_off seqs rs rs' D F i Hf Hc (me_cut _ _ _ _ _ M)).
    split; [|split; [|split]].
    + rewrite (me_data _ _ _ _ _ M). rewrite (concat_off _ i (s_data r') c); [exact S1|rewrite nth_error_map, Hr'; reflexivity|].
      eapply nth_error_Some_lt; eauto.
    + rewrite (off_eq _ _ _ i Hall). rewrite (me_cal _ _ _ _ _ M).
      rewrite (concat_off _ i (s_cal r') c); [exact S2|rewrite nth_error_map, Hr'; reflexivity|]. eapply nth_error_Some_lt; eauto.
    + rewrite S3. apply (me_rate _ _ _ _ _ M), Hin.
    + rewrite S4, (me_start' _ _ _ _ _ M r' Hin), (me_start _ _ _ _ _ M). reflexivity.
  - eapply iscut_restricted; [apply (ws_sync X W r HXr)|apply P, HXr|exact Ha|exact Hg].
Qed.

Lemma merged_window (seqs : list sigset) rs rs' D F s : fine seqs -> seqs <> [] -> choice seqs rs -> Forall (covers D F) rs ->
  merged D F rs rs' s -> (last_time s <= F)%Qc /\ (F < last_time s + Q2Qc 1 / s_rate s)%Qc /\ 2 <= s_size s /\ pos (s_rate s).
Proof.
  intros Hf Hne Hc Hcov M.
  destruct Hc as [|X r seqs rs Hr Hc]; [congruence|]. destruct M as [M1 M2 M3 M4 M5 M6 M7].
  inversion M1 as [|? r' ? rs'' (a & n & Er' & Ha & Hn) M1']; subst. destruct (Hf X (or_introl eq_refl)) as [W P].
  pose proof (ws_sync X W r Hr) as Ok1. pose proof (P r Hr) as Pr.
  assert (Es : s_size s = n).
  { pose proof (so_chan _ Ok1) as Hd. destruct (s_data r) as [|c0 d0] eqn:Ed; [congruence|].
    rewrite <- (so_size _ M7 (firstn n (skipn a c0))).
    - rewrite firstn_length, skipn_length, (so_size _ Ok1 c0) by (rewrite Ed; left; reflexivity). destruct Ha as [Ha _]. lia.
    - rewrite M2. simpl. rewrite Ed. left; reflexivity. }
  pose proof (M4 _ (or_introl eq_refl)) as Er. simpl in Er.
  pose proof (M5 _ (or_introl eq_refl)) as Est. simpl in Est.
  apply Forall_cons_iff in Hcov as [[C1 C2] _].
  destruct (window_count r (s_start s) F a n Pr Ha ltac:(lia) Est C2) as [G1 G2].
  rewrite Er in G1, G2, Pr. rewrite <- Es in G1, G2. split; [exact G1|]. split; [|split; [lia|exact Pr]].
  unfold last_time, sample_time. simpl.
  replace (s_start s + ZtoQc (Z.of_nat (s_size s) - 1) / s_rate s + Q2Qc 1 / s_rate s)%Qc
     with (s_start s + ZtoQc (Z.of_nat (s_size s)) / s_rate s)%Qc; [exact G2|].
  change (Q2Qc 1) with (ZtoQc 1). rewrite time_shift by exact Pr. do 3 f_equal. lia.
Qed.
End Merge.
