(** Merging signal sets: when it succeeds (exact arithmetic). *)
From Coq Require Import QArith Qcanon.
From Verif Require Import Base BaseLemmas SliceLemmas Arith OrdLaws QcLemmas TagsModel SpecTags TagsProofs
  SyncModel SetModel SpecSet SetProofs SpecSelect TrackProofs SelectProofs OrderProofs JoinProofs JoinOk
  SpecTime ExtractProofs ExtractSet ExcludeProofs ExtractSync SpecMerge MergeCommon MergeProofs MergeSet MergeRuns.
Open Scope nat_scope.

Section MergeOk.
Context {V K : Type} (kone : K).
Notation sync := (sync QA V K).
Notation sigset := (@sigset QA V K).
Notation seg := (@seg QA V K).

(** every operand that covers the window gives a single run *)
Lemma cuts_drop_all P (l l' : list sync) : cuts P l l' -> (forall r i n, In r l -> iscut P r i n -> n <= 1) -> l' = [].
Proof.
  induction 1 as [|s l l' i n Hi Hn Hc IH|s l l' i n Hi Hn Hc IH]; intros H; [reflexivity| |].
  - specialize (H s i n (or_introl eq_refl) Hi). lia.
  - apply IH. intros r a m Hr. apply H. right; exact Hr.
Qed.
Lemma cuts_one P (l l' : list sync) k r : cuts P l l' -> nth_error l k = Some r -> 2 <= count P r ->
  (forall j q i n, j <> k -> nth_error l j = Some q -> iscut P q i n -> n <= 1) ->
  exists i n, l' = [cut r i n] /\ iscut P r i n /\ 2 <= n.
Proof.
  intros Hc. revert k. induction Hc as [|s l l' i n Hi Hn Hc IH|s l l' i n Hi Hn Hc IH]; intros k Hk Hcnt Hoth; [destruct k; discriminate| |].
  - destruct k as [|k].
    + injection Hk as ->. exists i, n. split; [|auto]. f_equal. apply (cuts_drop_all P l l' Hc).
      intros q a m Hq Ha. apply In_nth_error in Hq as [j Hj]. exact (Hoth (S j) q a m ltac:(lia) Hj Ha).
    + specialize (Hoth 0 s i n ltac:(lia) eq_refl Hi). lia.
  - destruct k as [|k].
    + injection Hk as ->. rewrite (count_iscut _ _ _ _ Hi) in Hcnt. lia.
    + apply (IH k Hk Hcnt). intros j q a m Hj. apply (Hoth (S j)). lia.
Qed.
Lemma touch_few (X : sigset) D F k r j q i n : wf_set X -> positive_rates X -> nth_error (ss_signals X) k = Some r ->
  covers D F r -> nth_error (ss_signals X) j = Some q -> j <> k -> iscut (within D F) q i n -> n <= 1.
Proof.
  intros W P Hk [HD HF] Hj Hne Hi. destruct (Nat.le_gt_cases n 1) as [|Hn]; [assumption|exfalso].
  destruct Hi as [Hi1 Hi2].
  assert (W1 : within D F (sample_time q (Z.of_nat i)) = true) by (apply Hi2; lia).
  assert (W2 : within D F (sample_time q (Z.of_nat (i + 1))) = true) by (apply Hi2; lia).
  apply within_iff in W1 as [W1 _], W2 as [_ W2].
  assert (Pr : pos (s_rate q)) by (apply P; eapply nth_error_In; eauto).
  assert (L : (sample_time q (Z.of_nat i) < sample_time q (Z.of_nat (i + 1)))%Qc) by (apply time_mono_lt; [exact Pr|lia]).
  assert (S1 : (s_start q <= sample_time q (Z.of_nat i))%Qc).
  { rewrite <- (sample_0 q). apply sample_mono; [exact Pr|lia]. }
  assert (S2 : (sample_time q (Z.of_nat (i + 1)) <= last_time q)%Qc).
  { unfold last_time. apply sample_mono; [exact Pr|lia]. }
  pose proof (wf_before X W) as B. destruct (Nat.lt_total k j) as [Hlt|[->|Hlt]]; [|congruence|].
  - pose proof (StronglySorted_nth _ _ B k j r q Hlt Hk Hj) as G. unfold before in G.
    apply (Qclt_not_le _ _ L). apply (Qcle_trans _ F); [exact W2|]. apply (Qcle_trans _ _ _ HF), (Qcle_trans _ _ _ G), S1.
  - pose proof (StronglySorted_nth _ _ B j k q r Hlt Hj Hk) as G. unfold before in G.
    apply (Qclt_not_le _ _ L). apply (Qcle_trans _ _ _ S2), (Qcle_trans _ _ _ G), (Qcle_trans _ _ _ HD), W1.
Qed.
Lemma cover_single (X : sigset) D F r l : wf_set X -> positive_rates X -> cuts (within D F) (ss_signals X) l ->
  In r (ss_signals X) -> covers D F r -> 2 <= count (within D F) r -> exists r', l = [r'] /\ cutof D F r r'.
Proof.
  intros W P Hc Hr Hcov Hcnt. apply In_nth_error in Hr as [k Hk].
  destruct (cuts_one _ _ _ k r Hc Hk Hcnt) as (i & n & -> & Hi & Hn).
  - intros j q a m Hne Hj Hi. exact (touch_few X D F k r j q a m W P Hk Hcov Hj Hne Hi).
  - exists (cut r i n). split; [reflexivity|]. exists i, n. auto.
Qed.
Lemma choice_single (seqs : list sigset) rs ls D F : fine seqs -> choice seqs rs -> Forall (covers D F) rs ->
  (forall r, In r rs -> 2 <= count (within D F) r) ->
  Forall2 (fun X l => cuts (within D F) (ss_signals X) l) seqs ls ->
  exists rs', ls = map (fun r => [r]) rs' /\ Forall2 (cutof D F) rs rs'.
Proof.
  intros Hf Hc. revert ls. induction Hc as [|X r seqs rs Hr Hc IH]; intros ls Hcov Hcnt H; inversion H as [|? l ? ls' H1 H2]; subst.
  - exists []. split; [reflexivity|constructor].
  - apply Forall_cons_iff in Hcov as [C1 Hcov]. destruct (Hf X (or_introl eq_refl)) as [W P].
    destruct (cover_single X D F r l W P H1 Hr C1 (Hcnt r (or_introl eq_refl))) as (r' & -> & Hcut).
    destruct (IH (fun Y HY => Hf Y (or_intror HY)) ls' Hcov (fun q Hq => Hcnt q (or_intror Hq)) H2) as (rs' & -> & Hrs).
    exists (r' :: rs'). split; [reflexivity|constructor; assumption].
Qed.

(** a run with a sample at the beginning of the window is cut there *)
Lemma ticks_cut D F (r r' : sync) : pos (s_rate r) -> (D <= F)%Qc -> ticks r D -> cutof D F r r' -> s_start r' = D.
Proof.
  intros P L (j & Hj & <-) (i & n & -> & [Hi1 Hi2] & Hn). simpl.
  assert (G : i <= j < i + n) by (apply (Hi2 j Hj), within_iff; split; [apply Qcle_refl|exact L]).
  assert (W1 : within (sample_time r (Z.of_nat j)) F (sample_time r (Z.of_nat i)) = true) by (apply Hi2; lia).
  apply within_iff in W1 as [W1 _]. apply sample_mono in W1; [|exact P]. replace i with j by lia. reflexivity.
Qed.

Lemma same_length_concat (ls : list (list (list V))) n : (forall l c, In l ls -> In c l -> length c = n) ->
  forall c, In c (concat ls) -> length c = n.
Proof. intros H c Hc. apply in_concat in Hc as (l & Hl & Hc). eauto. Qed.

Lemma mone_ok (seqs : list sigset) rs rs' D F : fine seqs -> seqs <> [] -> choice seqs rs -> Forall (covers D F) rs -> (D <= F)%Qc ->
  Forall2 (cutof D F) rs rs' -> (same_rate rs -> forall r, In r rs -> ticks r D) ->
  exists o, mone kone D (map (fun r => [r]) rs') = Ok o.
Proof.
  intros Hf Hne Hc Hcov HDF Hcut Htick. unfold mone.
  assert (E1 : forallb (fun l : list sync => length l =? 1) (map (fun r => [r]) rs') = true).
  { apply forallb_forall. intros l Hl. apply in_map_iff in Hl as (r & <- & _). reflexivity. }
  rewrite E1. cbn [check bind]. rewrite concat_singles.
  destruct (dedup (neqb QA) (map s_rate rs')) as [|rate [|rate2 rates]] eqn:E; [eauto| |eauto].
  apply (dedup_all_eq _ Qceqb_eq) in E as [_ E].
  assert (Hsr : same_rate rs).
  { intros r q Hr Hq. destruct (Forall2_In_l' _ _ _ _ Hcut Hr) as (r' & Hr' & Cr). destruct (Forall2_In_l' _ _ _ _ Hcut Hq) as (q' & Hq' & Cq).
    rewrite <- (cutof_rate _ _ _ _ Cr), <- (cutof_rate _ _ _ _ Cq), (E _ (in_map s_rate _ _ Hr')), (E _ (in_map s_rate _ _ Hq')). reflexivity. }
  assert (Pos : forall r, In r rs -> pos (s_rate r)).
  { intros r Hr. destruct (choice_In seqs rs r Hc Hr) as (X & HX & HrX). apply (proj2 (Hf X HX)), HrX. }
  assert (Okr : forall r, In r rs -> sync_ok r).
  { intros r Hr. destruct (choice_In seqs rs r Hc Hr) as (X & HX & HrX). apply (ws_sync X (proj1 (Hf X HX))), HrX. }
  assert (Okr' : forall r', In r' rs' -> sync_ok r').
  { intros r' Hr'. destruct (Forall2_In_r' _ _ _ _ Hcut Hr') as (r & Hr & C). eapply cutof_ok; eauto. }
  assert (Hst : forall r', In r' rs' -> s_start r' = D).
  { intros r' Hr'. destruct (Forall2_In_r' _ _ _ _ Hcut Hr') as (r & Hr & C). eapply ticks_cut; eauto. }
  assert (E2 : forallb (fun s : sync => neqb QA (s_start s) D) rs' = true).
  { apply forallb_forall. intros r' Hr'. apply Qceqb_eq, Hst, Hr'. }
  rewrite E2. cbn [check bind].
  assert (Hsz : forall r' q', In r' rs' -> In q' rs' -> s_size r' = s_size q').
  { intros r' q' Hr' Hq'. destruct (Forall2_In_r' _ _ _ _ Hcut Hr') as (r & Hr & i & n & -> & Hi & Hn).
    destruct (Forall2_In_r' _ _ _ _ Hcut Hq') as (q & Hq & j & m & -> & Hj & Hm). simpl.
    rewrite Forall_forall in Hcov.
    destruct (window_count r D F i n (Pos r Hr) Hi ltac:(lia) (Hst _ Hr') (proj2 (Hcov r Hr))) as [A1 A2].
    destruct (window_count q D F j m (Pos q Hq) Hj ltac:(lia) (Hst _ Hq') (proj2 (Hcov q Hq))) as [B1 B2].
    rewrite (Hsr q r Hq Hr) in B1, B2. exact (window_count_unique D F (s_rate r) n m (Pos r Hr) A1 A2 B1 B2). }
  destruct (sync_new_exists (A := QA) kone (concat (map s_data rs')) rate D (concat (map s_cal rs'))) as [s Hs].
  - destruct Hc as [|X r seqs rs Hr Hc]; [congruence|]. inversion Hcut as [|? r' ? rs'' C1 C2]; subst. simpl.
    pose proof (so_chan _ (Okr' r' (or_introl eq_refl))) as G. destruct (s_data r'); [congruence|discriminate].
  - apply concat_length_eq. intros r' Hr'. apply so_cal, Okr', Hr'.
  - intros c d Hc' Hd'. apply in_concat in Hc' as (l1 & Hl1 & Hc'), Hd' as (l2 & Hl2 & Hd').
    apply in_map_iff in Hl1 as (r' & <- & Hr'), Hl2 as (q' & <- & Hq').
    rewrite (so_size _ (Okr' r' Hr') c Hc'), (so_size _ (Okr' q' Hq') d Hd'). apply Hsz; assumption.
  - rewrite Hs. cbn [bind]. eauto.
Qed.

(** [merge_one] can only fail with AssertionError *)
Lemma mone_err (D : Qc) (ls : list (list sync)) e : mone kone D ls = Err e -> e = AssertionError.
Proof.
  unfold mone. destruct (forallb _ ls); cbn [check bind]; [|congruence].
  destruct (dedup (neqb QA) (map s_rate (concat ls))) as [|rate [|? ?]]; try discriminate.
  destruct (forallb _ (concat ls)); cbn [check bind]; [|congruence].
  unfold sync_new. destruct (_ =? _); cbn [check bind]; [|congruence].
  destruct (dedup Nat.eqb _) as [|? [|? ?]]; cbn [bind]; congruence.
Qed.
Lemma merge_one_err (seqs : list sigset) D F e : fine seqs -> good seqs -> merge_one (A := QA) kone seqs (D, F) = Err e -> e = AssertionError.
Proof. intros Hf Hg H. destruct (merge_one_total kone seqs D F Hf Hg) as (ls & _ & E). exact (mone_err D ls e (eq_trans (eq_sym E) H)). Qed.

Lemma mapM_only {B C} (f : B -> res C) l e : (forall x e', In x l -> f x = Err e' -> e' = e) ->
  (exists l', mapM f l = Ok l') \/ mapM f l = Err e.
Proof.
  induction l as [|x l IH]; intros H; simpl; [left; eauto|]. destruct (f x) as [y|e'] eqn:E.
  - simpl. destruct IH as [[l' ->]| ->]; [intros; eapply H; [right; eassumption|assumption]|left; simpl; eauto|right; reflexivity].
  - right. simpl. f_equal. eapply H; [left; reflexivity|exact E].
Qed.

(** *** the checks that come before *)
Lemma good_methods (seqs : list sigset) m : good seqs -> In m special_names ->
  mapM (fun s : sigset => method (ss_tags s) m) seqs = Ok (map (fun _ => tt) seqs).
Proof.
  intros Hg Hm. apply (mapM_ok_all _ (fun _ => tt)). intros X HX. apply (plain_method _ _ (proj2 (Hg X HX)) Hm).
Qed.
Lemma mins_ok (seqs : list sigset) : (forall X, In X seqs -> ss_signals X <> []) ->
  exists mins, mapM (fun l => @num_min QA (endpoints l)) (map ivs seqs) = Ok mins /\ length mins = length seqs.
Proof.
  intros H. destruct (mapM_ok_exists (fun l => @num_min QA (endpoints l)) (map ivs seqs)) as [mins Hm].
  - intros l Hl. apply in_map_iff in Hl as (X & <- & HX). specialize (H X HX). unfold ivs.
    destruct (ss_signals X); [congruence|]. eexists; reflexivity.
  - exists mins. split; [exact Hm|]. apply mapM_length in Hm. rewrite map_length in Hm. exact Hm.
Qed.
Lemma maxs_ok (seqs : list sigset) : (forall X, In X seqs -> ss_signals X <> []) ->
  exists maxs, mapM (fun l => @num_max QA (endpoints l)) (map ivs seqs) = Ok maxs /\ length maxs = length seqs.
Proof.
  intros H. destruct (mapM_ok_exists (fun l => @num_max QA (endpoints l)) (map ivs seqs)) as [mins Hm].
  - intros l Hl. apply in_map_iff in Hl as (X & <- & HX). specialize (H X HX). unfold ivs.
    destruct (ss_signals X); [congruence|]. eexists; reflexivity.
  - exists mins. split; [exact Hm|]. apply mapM_length in Hm. rewrite map_length in Hm. exact Hm.
Qed.

Lemma bind_eq {B C} (m : res B) (k : B -> res C) x : m = Ok x -> bind m k = k x.
Proof. intros ->. reflexivity. Qed.
Lemma bind_ext' {B C} (m : res B) (k k' : B -> res C) : (forall x, k x = k' x) -> bind m k = bind m k'.
Proof. intros H. destruct m; [apply H|reflexivity]. Qed.
Lemma bind_err' {B C} (m : res B) (k : B -> res C) e : m = Err e -> bind m k = Err e.
Proof. intros ->. reflexivity. Qed.
Definition finish (seqs : list sigset) (t : tags) (outs : list (option sync)) : res sigset :=
  set_of_syncs (TObj t) (somes outs).
(** everything before the loop over the common intervals *)
Lemma merge_prefix (seqs : list sigset) : good seqs -> seqs <> [] -> NoDup (names seqs) ->
  (forall X, In X seqs -> ss_signals X <> []) ->
  exists t d f, tags_new (Some (Z.of_nat (list_sum (map nb_channels seqs)))) (merge_tags seqs) = Ok t /\
    plain t /\ tags_valid t /\ t_n t = list_sum (map nb_channels seqs) /\ bounds seqs d f /\
    merge_all kone seqs = (outs <- mapM (merge_one (A := QA) kone seqs) (common' d f (map ivs seqs)) ;; finish seqs t outs).
Proof.
  intros Hg Hne Hnd Hr. destruct (merge_tags_ok seqs Hg Hnd) as (t & Ht & P & Vt & Nt).
  destruct (mins_ok seqs Hr) as (mins & Hmin & Lmin). destruct (maxs_ok seqs Hr) as (maxs & Hmax & Lmax).
  destruct (num_min mins) as [d|e] eqn:Ed.
  2:{ apply num_min_err in Ed as [-> _]. destruct seqs; [congruence|discriminate]. }
  destruct (num_max maxs) as [f|e] eqn:Ef.
  2:{ apply num_max_err in Ef as [-> _]. destruct seqs; [congruence|discriminate]. }
  exists t, d, f. split; [exact Ht|]. split; [exact P|]. split; [exact Vt|]. split; [exact Nt|].
  split; [eapply merge_bounds; eauto|].
  unfold merge_all. rewrite (good_methods seqs "keys" Hg) by (simpl; auto 10). cbn [bind].
  change (concat (map (fun s : sigset => dkeys (t_dict (ss_tags s))) seqs)) with (names seqs).
  rewrite (proj2 (dedup_length_NoDup String.eqb String.eqb_eq (names seqs)) Hnd), Nat.eqb_refl. cbn [check bind].
  rewrite (good_methods seqs "items" Hg) by (simpl; auto 10). cbn [bind]. rewrite fold_channels. simpl Nat.add. rewrite Ht. cbn [bind].
  rewrite (merge_intervals seqs) by (intros X HX; apply Hg, HX). cbn [bind].
  etransitivity; [exact (bind_eq _ _ _ Hmin)|]. etransitivity; [exact (bind_eq _ _ _ Ed)|].
  etransitivity; [exact (bind_eq _ _ _ Hmax)|]. etransitivity; [exact (bind_eq _ _ _ Ef)|].
  apply bind_ext'. intros outs. apply set_new_syncs.
Qed.

Lemma somes_before (seqs : list sigset) l outs : fine seqs -> seqs <> [] ->
  (forall D F, In (D, F) l -> exists rs, choice seqs rs /\ Forall (covers D F) rs) ->
  StronglySorted apart l -> mapM (merge_one (A := QA) kone seqs) l = Ok outs ->
  StronglySorted before (somes outs) /\
  forall s, In s (somes outs) -> pos (s_rate s) /\ 2 <= s_size s /\ length (s_data s) = list_sum (map nb_channels seqs) /\
    exists D F, In (D, F) l /\ s_start s = D /\ (last_time s <= F)%Qc.
Proof.
  intros Hf Hne Hl Hs. revert outs. induction Hs as [|[D F] l Hs IH Hx]; intros outs H; simpl in H.
  - injection H as <-. split; [constructor|intros s []].
  - apply bind_ok in H as (o & H1 & H). apply bind_ok in H as (outs' & H2 & H). injection H as <-.
    destruct (IH (fun D F H => Hl D F (or_intror H)) outs' H2) as [I1 I2].
    assert (I2' : forall s, In s (somes outs') -> pos (s_rate s) /\ 2 <= s_size s /\ length (s_data s) = list_sum (map nb_channels seqs) /\
        exists D' F', In (D', F') ((D, F) :: l) /\ s_start s = D' /\ (last_time s <= F')%Qc).
    { intros s Hin. destruct (I2 s Hin) as (A1 & A2 & A3 & D' & F' & A4 & A5). split; [exact A1|]. split; [exact A2|]. split; [exact A3|].
      exists D', F'. simpl. tauto. }
    destruct o as [s|]; [|split; [exact I1|exact I2']]. simpl.
    destruct (Hl D F (or_introl eq_refl)) as (rs & Hc & Hcov).
    destruct (merge_one_merged kone seqs rs D F s Hf Hc Hcov H1) as [rs' M].
    destruct (merged_window seqs rs rs' D F s Hf Hne Hc Hcov M) as (G1 & _ & G2 & G3). split.
    + constructor; [exact I1|]. apply Forall_forall. intros s' Hs'. destruct (I2 s' Hs') as (_ & _ & _ & D' & F' & A4 & A5 & _).
      unfold before. rewrite Forall_forall in Hx. specialize (Hx _ A4). unfold apart in Hx. simpl in Hx. rewrite A5.
      exact (Qcle_trans _ _ _ G1 Hx).
    + intros s' [<-|Hs']; [|exact (I2' s' Hs')]. split; [exact G3|]. split; [exact G2|]. split.
      * rewrite (me_data _ _ _ _ _ M). pose proof (merged_off seqs rs rs' D F (length seqs) Hf Hc (me_cut _ _ _ _ _ M)) as E.
        rewrite firstn_all in E. rewrite <- E. unfold off. rewrite firstn_all2; [|].
        -- clear. induction (map s_data rs') as [|x xs IHx]; simpl; [reflexivity|]. rewrite app_length, IHx. reflexivity.
        -- rewrite map_length. assert (L1 : length rs = length seqs) by (clear -Hc; induction Hc; simpl; congruence).
           pose proof (me_cut _ _ _ _ _ M) as Hcut. assert (L2 : length rs = length rs') by (clear -Hcut; induction Hcut; simpl; congruence). lia.
      * exists D, F. split; [left; reflexivity|]. split; [apply (me_start _ _ _ _ _ M)|exact G1].
Qed.

Lemma overlapping_span_le (rs : list sync) D F : (forall r, In r rs -> pos (s_rate r) /\ 1 <= s_size r) -> overlapping rs -> span rs D F -> (D <= F)%Qc.
Proof.
  intros Hp Ho [[(r & Hr & <-) _] [(q & Hq & <-) _]]. apply In_nth_error in Hr as [a Ha], Hq as [b Hb].
  destruct (Nat.lt_total a b) as [L|[->|L]].
  - assert (G : (s_start r < last_time q)%Qc /\ (s_start q < last_time r)%Qc).
    { clear Hp. unfold overlapping in Ho. revert a b Ha Hb L. induction Ho as [|x l Hx Ho IH]; intros [|a] [|b] Ha Hb L; simpl in *; try discriminate; try lia.
      - injection Ha as ->. rewrite Forall_forall in Hx. apply Hx. eapply nth_error_In; eauto.
      - apply (IH a b); auto; lia. }
    apply Qclt_le_weak, G.
  - rewrite Ha in Hb. injection Hb as <-. destruct (Hp r (nth_error_In _ _ Ha)) as [P1 P2].
    rewrite <- (sample_0 r) at 1. apply sample_mono; [exact P1|lia].
  - assert (G : (s_start q < last_time r)%Qc /\ (s_start r < last_time q)%Qc).
    { clear Hp. unfold overlapping in Ho. revert b a Ha Hb L. induction Ho as [|x l Hx Ho IH]; intros [|b] [|a] Ha Hb L; simpl in *; try discriminate; try lia.
      - injection Hb as ->. rewrite Forall_forall in Hx. apply Hx. eapply nth_error_In; eauto.
      - apply (IH b a); auto; lia. }
    apply Qclt_le_weak, G.
Qed.

Theorem merge_all_ok (seqs : list sigset) : fine seqs -> good seqs -> seqs <> [] -> (forall X, In X seqs -> ss_signals X <> []) ->
  disjoint_names seqs -> compatible seqs -> exists Y, merge_all kone seqs = Ok Y.
Proof.
  intros Hf Hg Hne Hr Hdis Hcomp. assert (W : forall X, In X seqs -> wf_set X) by (intros X HX; apply Hf, HX).
  apply (names_disjoint seqs W) in Hdis.
  destruct (merge_prefix seqs Hg Hne Hdis Hr) as (t & d & f & Ht & P & Vt & Nt & Hb & ->).
  destruct (mapM_ok_exists (merge_one (A := QA) kone seqs) (common' d f (map ivs seqs))) as [outs Ho].
  { intros [D F] Hin. destruct (common_span seqs d f D F Hf Hne Hb Hin) as (rs & Hc & Hov & Hsp).
    destruct (Hcomp rs D F Hc Hov Hsp) as [C1 C2].
    destruct (merge_one_total kone seqs D F Hf Hg) as (ls & Hls & Etot).
    destruct (choice_single seqs rs ls D F Hf Hc (span_covers _ _ _ Hsp) C1 Hls) as (rs' & -> & Hcut).
    enough (G : (D <= F)%Qc).
    { destruct (mone_ok seqs rs rs' D F Hf Hne Hc (span_covers _ _ _ Hsp) G Hcut C2) as [o Eo]. exists o. exact (eq_trans Etot Eo). }
    eapply overlapping_span_le; [|exact Hov|exact Hsp]. intros r Hr'. destruct (choice_In seqs rs r Hc Hr') as (X & HX & HrX).
    split; [apply (proj2 (Hf X HX)), HrX|]. specialize (C1 r Hr'). unfold count in C1.
    destruct (s_size r); [simpl in C1; lia|lia]. }
  rewrite Ho. cbn [bind]. unfold finish.
  destruct (somes_before seqs (common' d f (map ivs seqs)) outs Hf Hne) as [S1 S2]; [| |exact Ho|].
  { intros D F Hin. destruct (common_span seqs d f D F Hf Hne Hb Hin) as (rs & Hc & Hov & Hsp). exists rs. split; [exact Hc|apply span_covers, Hsp]. }
  { apply common_sorted. apply Forall_map, Forall_forall. intros X HX. apply ivs_apart, W, HX. }
  rewrite chain_set_ok; [| | | |exact S1].
  - destruct (set_tags_obj_ok (somes outs) t Vt P) as (t' & -> & _).
    + destruct (somes outs) as [|s0 l0] eqn:E; [left; reflexivity|right]. exists s0. split; [reflexivity|].
      destruct (S2 s0 (or_introl eq_refl)) as (_ & _ & L & _). rewrite Nt. split; [exact L|].
      destruct seqs as [|X seqs]; [congruence|]. specialize (Hr X (or_introl eq_refl)).
      destruct (ss_signals X) as [|r rs] eqn:EX; [congruence|]. simpl. rewrite (run_channels X r (W X (or_introl eq_refl))) by (rewrite EX; left; reflexivity).
      pose proof (so_chan _ (ws_sync X (W X (or_introl eq_refl)) r ltac:(rewrite EX; left; reflexivity))). destruct (s_data r); [congruence|]. simpl. lia.
    + cbn [bind]. eauto.
  - intros s Hs. rewrite Nt. apply S2, Hs.
  - intros s Hs. apply S2, Hs.
  - intros s Hs. destruct (S2 s Hs) as (P1 & P2 & _). rewrite <- (sample_0 s) at 1. apply sample_mono; [exact P1|lia].
Qed.

Theorem merge_all_compatible (seqs : list sigset) Y : fine seqs -> 2 <= length seqs -> merge_all kone seqs = Ok Y ->
  disjoint_names seqs /\ compatible seqs.
Proof.
  intros Hf Hl H. assert (W : forall X, In X seqs -> wf_set X) by (intros X HX; apply Hf, HX).
  destruct (merge_inv kone seqs Y W H) as (Hnd & _ & t & d & f & outs & _ & _ & Hb & Ho & _).
  split; [apply names_disjoint; assumption|]. intros rs D F Hc Hov Hsp.
  pose proof (overlap_In seqs d f D F rs Hf Hb Hl Hc Hsp Hov) as Hin. destruct (mapM_In _ _ _ _ Ho Hin) as (o & _ & Hm).
  destruct (covers_cuts kone seqs rs D F o Hf Hc (span_covers _ _ _ Hsp) Hm) as (rs' & Hcut & Hmm). split.
  - intros r Hr. destruct (Forall2_In_l' _ _ _ _ Hcut Hr) as (r' & _ & i & n & _ & Hi & Hn). rewrite (count_iscut _ _ _ _ Hi). exact Hn.
  - intros Hsr r Hr. destruct (Forall2_In_l' _ _ _ _ Hcut Hr) as (r' & Hr' & i & n & Er & Hi & Hn). exists i.
    split; [destruct Hi; lia|]. destruct o as [s|].
    + destruct (mone_inv kone D _ s Hmm) as (rs2 & E & _ & _ & _ & Hst & _).
      assert (rs' = rs2) as <-.
      { clear -E. revert rs2 E. induction rs' as [|a rs' IH]; intros [|b rs2] E; try discriminate; [reflexivity|].
        injection E as <- E. f_equal. apply IH, E. }
      specialize (Hst r' Hr'). rewrite Er in Hst. exact Hst.
    + exfalso. destruct (mone_none kone D _ Hmm) as (rs2 & E & Hor).
      assert (rs' = rs2) as <-.
      { clear -E. revert rs2 E. induction rs' as [|a rs' IH]; intros [|b rs2] E; try discriminate; [reflexivity|].
        injection E as <- E. f_equal. apply IH, E. }
      destruct Hor as [->|(x & y & Hx & Hy & Hneq)]; [destruct Hr'|].
      destruct (Forall2_In_r' _ _ _ _ Hcut Hx) as (x0 & Hx0 & C1). destruct (Forall2_In_r' _ _ _ _ Hcut Hy) as (y0 & Hy0 & C2).
      apply Hneq. rewrite (cutof_rate _ _ _ _ C1), (cutof_rate _ _ _ _ C2). apply Hsr; assumption.
Qed.

Theorem merge_all_only_assert (seqs : list sigset) e : fine seqs -> good seqs -> seqs <> [] ->
  (forall X, In X seqs -> ss_signals X <> []) -> merge_all kone seqs = Err e -> e = AssertionError.
Proof.
  intros Hf Hg Hne Hr H. assert (W : forall X, In X seqs -> wf_set X) by (intros X HX; apply Hf, HX).
  destruct (ListDec.NoDup_dec string_dec (names seqs)) as [Hnd|Hnd].
  - destruct (merge_prefix seqs Hg Hne Hnd Hr) as (t & d & f & Ht & P & Vt & Nt & Hb & E). rewrite E in H.
    destruct (mapM_only (merge_one (A := QA) kone seqs) (common' d f (map ivs seqs)) AssertionError) as [[outs Ho]|Ho].
    + intros [D F] e' _ He. exact (merge_one_err seqs D F e' Hf Hg He).
    + rewrite Ho in H. cbn [bind] in H. unfold finish in H.
      destruct (somes_before seqs (common' d f (map ivs seqs)) outs Hf Hne) as [S1 S2]; [| |exact Ho|].
      { intros D F Hin. destruct (common_span seqs d f D F Hf Hne Hb Hin) as (rs & Hc & Hov & Hsp). exists rs. split; [exact Hc|apply span_covers, Hsp]. }
      { apply common_sorted. apply Forall_map, Forall_forall. intros X HX. apply ivs_apart, W, HX. }
      exfalso. rewrite chain_set_ok in H; [| | | |exact S1].
      * destruct (set_tags_obj_ok (somes outs) t Vt P) as (t' & Et & _).
        -- destruct (somes outs) as [|s0 l0] eqn:E0; [left; reflexivity|right]. exists s0. split; [reflexivity|].
           destruct (S2 s0 (or_introl eq_refl)) as (_ & _ & L & _). rewrite Nt. split; [exact L|].
           destruct seqs as [|X seqs]; [congruence|]. specialize (Hr X (or_introl eq_refl)).
           destruct (ss_signals X) as [|r rs] eqn:EX; [congruence|]. simpl. rewrite (run_channels X r (W X (or_introl eq_refl))) by (rewrite EX; left; reflexivity).
           pose proof (so_chan _ (ws_sync X (W X (or_introl eq_refl)) r ltac:(rewrite EX; left; reflexivity))). destruct (s_data r); [congruence|]. simpl. lia.
        -- rewrite Et in H. discriminate.
      * intros s Hs. rewrite Nt. apply S2, Hs.
      * intros s Hs. apply S2, Hs.
      * intros s Hs. destruct (S2 s Hs) as (P1 & P2 & _). rewrite <- (sample_0 s) at 1. apply sample_mono; [exact P1|lia].
    + rewrite Ho in H. cbn [bind] in H. congruence.
  - unfold merge_all in H. rewrite (good_methods seqs "keys" Hg) in H by (simpl; auto 10). cbn [bind] in H.
    change (concat (map (fun s : sigset => dkeys (t_dict (ss_tags s))) seqs)) with (names seqs) in H.
    destruct (Nat.eqb_spec (length (dedup String.eqb (names seqs))) (length (names seqs))) as [E|E].
    + apply (dedup_length_NoDup String.eqb String.eqb_eq) in E. contradiction.
    + cbn [check bind] in H. congruence.
Qed.

Theorem merge_all_no_runs (seqs : list sigset) X : good seqs -> In X seqs -> ss_signals X = [] -> disjoint_names seqs ->
  merge_all kone seqs = Err ValueError.
Proof.
  intros Hg HX Hr Hdis. assert (W : forall X, In X seqs -> wf_set X) by (intros Z HZ; apply Hg, HZ).
  apply (names_disjoint seqs W) in Hdis. destruct (merge_tags_ok seqs Hg Hdis) as (t & Ht & P & Vt & Nt).
  unfold merge_all. rewrite (good_methods seqs "keys" Hg) by (simpl; auto 10). cbn [bind].
  change (concat (map (fun s : sigset => dkeys (t_dict (ss_tags s))) seqs)) with (names seqs).
  rewrite (proj2 (dedup_length_NoDup String.eqb String.eqb_eq (names seqs)) Hdis), Nat.eqb_refl. cbn [check bind].
  rewrite (good_methods seqs "items" Hg) by (simpl; auto 10). cbn [bind]. rewrite fold_channels. simpl Nat.add. rewrite Ht. cbn [bind].
  rewrite (merge_intervals seqs W). cbn [bind].
  etransitivity; [apply bind_err', (mapM_err_all (fun l => @num_min QA (endpoints l)) (map ivs seqs) ValueError)|reflexivity].
  - intros l _. destruct (@num_min QA (endpoints l)) as [m|e] eqn:E; [right; eauto|left]. apply num_min_err in E as [_ ->]. reflexivity.
  - exists (ivs X). split; [apply in_map, HX|]. unfold ivs. rewrite Hr. reflexivity.
Qed.
Theorem merge_all_shared (seqs : list sigset) : good seqs -> ~ disjoint_names seqs -> merge_all kone seqs = Err AssertionError.
Proof.
  intros Hg Hn. assert (W : forall X, In X seqs -> wf_set X) by (intros Z HZ; apply Hg, HZ).
  unfold merge_all. rewrite (good_methods seqs "keys" Hg) by (simpl; auto 10). cbn [bind].
  change (concat (map (fun s : sigset => dkeys (t_dict (ss_tags s))) seqs)) with (names seqs).
  destruct (Nat.eqb_spec (length (dedup String.eqb (names seqs))) (length (names seqs))) as [E|E]; [|reflexivity].
  apply (dedup_length_NoDup String.eqb String.eqb_eq) in E. apply (names_disjoint seqs W) in E. contradiction.
Qed.

(** ** tags and channels of the result *)
Theorem merge_all_tags (seqs : list sigset) Y : (forall X, In X seqs -> wf_set X) -> merge_all kone seqs = Ok Y ->
  disjoint_names seqs /\ forall k n, tag_size Y k n <-> exists X, In X seqs /\ tag_size X k n.
Proof.
  intros W H. split; [apply names_disjoint; [exact W|eapply (merge_inv kone); eauto]|]. intros k n. split.
  - intros (l' & Hl' & <-). apply (merge_reads kone seqs Y W H) in Hl' as (i & X & l & HX & Hl & ->).
    exists X. split; [eapply nth_error_In; eauto|]. exists l. rewrite map_length. auto.
  - intros (X & HX & l & Hl & <-). apply In_nth_error in HX as [i HX].
    exists (map (fun j => j + list_sum (map nb_channels (firstn i seqs))) l). rewrite map_length. split; [|reflexivity].
    apply (merge_reads kone seqs Y W H). exists i, X, l. auto.
Qed.
Theorem merge_all_channels (seqs : list sigset) Y : fine seqs -> seqs <> [] -> merge_all kone seqs = Ok Y -> ss_signals Y <> [] ->
  nb_channels Y = list_sum (map nb_channels seqs).
Proof.
  intros Hf Hne H HY. assert (W : forall X, In X seqs -> wf_set X) by (intros X HX; apply Hf, HX).
  destruct (merge_inv kone seqs Y W H) as (Hnd & _ & t & d & f & outs & _ & _ & Hb & Ho & ES).
  destruct (somes_before seqs (common' d f (map ivs seqs)) outs Hf Hne) as [S1 S2]; [| |exact Ho|].
  { intros D F Hin. destruct (common_span seqs d f D F Hf Hne Hb Hin) as (rs & Hc & Hov & Hsp). exists rs. split; [exact Hc|apply span_covers, Hsp]. }
  { apply common_sorted. apply Forall_map, Forall_forall. intros X HX. apply ivs_apart, W, HX. }
  unfold nb_channels at 1, nb_channels_of. destruct (ss_signals Y) as [|s l] eqn:E; [congruence|]. 
  apply S2. apply (proj1 (sort_signals_In _ _)). rewrite <- ES. left; reflexivity.
Qed.
End MergeOk.
