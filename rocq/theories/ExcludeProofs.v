(** Excluding a time window: proofs (exact arithmetic). *)
From Coq Require Import QArith Qcanon.
From Verif Require Import Base BaseLemmas SliceLemmas Arith OrdLaws QcLemmas TagsModel SpecTags TagsProofs
  SyncModel SetModel SpecSet SetProofs SpecSelect TrackProofs SelectProofs OrderProofs JoinProofs JoinOk
  SpecTime ExtractProofs ExtractSet.
Open Scope nat_scope.

Lemma mapM_err_all {B C} (f : B -> res C) l e :
  (forall x, In x l -> f x = Err e \/ exists y, f x = Ok y) -> (exists x, In x l /\ f x = Err e) -> mapM f l = Err e.
Proof.
  induction l as [|x l IH]; intros Hall [x0 [Hx0 E0]]; [destruct Hx0|]. simpl.
  destruct (Hall x (or_introl eq_refl)) as [E|[y E]]; rewrite E; [reflexivity|]. simpl.
  rewrite IH; [reflexivity|intros; apply Hall; right; assumption|].
  exists x0. destruct Hx0 as [->|H]; [congruence|auto].
Qed.

(** the smallest range that can hold the tags of [t] *)
Lemma tags_copy_infer_n t : tags_valid t -> plain t ->
  exists t', tags_new None (arg_dict (TObj t)) = Ok t' /\ t_dict t' = t_dict t /\ t_n t' <= t_n t /\
    (forall k l c, reads t k l -> In c l -> c < t_n t') /\
    (forall m, (forall k l c, reads t k l -> In c l -> c < m) -> t_n t' <= m).
Proof.
  intros Hv Hp. destruct (tags_copy_infer t Hv Hp) as (t' & Ht & Hd). exists t'. split; [exact Ht|]. split; [exact Hd|].
  destruct (tags_infer_minimal _ _ Ht) as [M1 M2].
  assert (M : forall m, (forall k l c, reads t k l -> In c l -> c < m) -> t_n t' <= m).
  { intros m Hm. apply M2. intros z (k & v & Hkv & Hz). simpl in Hkv. apply in_map_iff in Hkv as ([k1 l1] & E & H).
    injection E as <- <-. simpl in Hz. apply in_map_iff in Hz as (c & <- & Hc). specialize (Hm _ _ _ H Hc). lia. }
  split; [apply M; intros k l c Hk Hc; eapply tv_range; eauto|]. split; [|exact M].
  intros k l c Hk Hc. assert (Hz : listed (arg_dict (TObj t)) (Z.of_nat c)).
  { exists k, (RTuple (map Z.of_nat l)). split.
    - simpl. apply in_map_iff. exists (k, l). auto.
    - simpl. apply in_map. exact Hc. }
  apply M1 in Hz. lia.
Qed.

(** the last channel carries a tag *)
Definition top_tagged (t : tags) : Prop := t_n t = 0 \/ exists k l, reads t k l /\ In (t_n t - 1) l.
Lemma top_tagged_infer t : tags_valid t -> plain t -> top_tagged t -> tags_new None (arg_dict (TObj t)) = Ok t.
Proof.
  intros Hv Hp Ht. destruct (tags_copy_infer_n t Hv Hp) as (t' & H & Hd & H1 & H2 & _). rewrite H. f_equal.
  destruct t as [n d], t' as [n' d']. simpl in *. subst d'. f_equal.
  destruct Ht as [Hz|(k & l & Hk & Hl)]; simpl in *; [lia|]. specialize (H2 k l (n - 1) Hk Hl). lia.
Qed.

Section Exclude.
Context {V K : Type} (kone : K).
Notation sync := (sync QA V K).
Notation sigset := (@sigset QA V K).
Notation seg := (@seg QA V K).

Lemma set_tags_nil (t : tags) : plain t -> @set_tags QA V K [] None (TObj t) = tags_new None (arg_dict (TObj t)).
Proof. intros Hp. unfold set_tags. rewrite (plain_method t "keys" Hp) by (simpl; auto 10). reflexivity. Qed.

Lemma num_min_spec (l : list Qc) m : @num_min QA l = Ok m -> In m l /\ forall x, In x l -> (m <= x)%Qc.
Proof.
  destruct l as [|x l]; [discriminate|]. simpl. intros H. injection H as <-.
  assert (G : forall l x, In (fold_left (@pmin QA) l x) (x :: l) /\ forall y, In y (x :: l) -> (fold_left (@pmin QA) l x <= y)%Qc).
  { clear. induction l as [|y l IH]; intros x; cbn [fold_left In].
    - split; [auto|]. intros z [->|[]]. apply Qcle_refl.
    - destruct (IH (@pmin QA x y)) as [I1 I2]. destruct (pmin_min x y) as (P1 & P2 & P3). split.
      + destruct I1 as [E|I1]; [|auto]. rewrite <- E. destruct P3 as [->| ->]; auto.
      + intros z [<-|[<-|Hz]].
        * eapply Qcle_trans; [apply I2; left; reflexivity|exact P1].
        * eapply Qcle_trans; [apply I2; left; reflexivity|exact P2].
        * apply I2. right. exact Hz. }
  apply G.
Qed.
Lemma num_max_spec (l : list Qc) m : @num_max QA l = Ok m -> In m l /\ forall x, In x l -> (x <= m)%Qc.
Proof.
  destruct l as [|x l]; [discriminate|]. simpl. intros H. injection H as <-.
  assert (G : forall l x, In (fold_left (@pmax QA) l x) (x :: l) /\ forall y, In y (x :: l) -> (y <= fold_left (@pmax QA) l x)%Qc).
  { clear. induction l as [|y l IH]; intros x; cbn [fold_left In].
    - split; [auto|]. intros z [->|[]]. apply Qcle_refl.
    - destruct (IH (@pmax QA x y)) as [I1 I2]. destruct (pmax_max x y) as (P1 & P2 & P3). split.
      + destruct I1 as [E|I1]; [|auto]. rewrite <- E. destruct P3 as [->| ->]; auto.
      + intros z [<-|[<-|Hz]].
        * eapply Qcle_trans; [exact P1|apply I2; left; reflexivity].
        * eapply Qcle_trans; [exact P2|apply I2; left; reflexivity].
        * apply I2. right. exact Hz. }
  apply G.
Qed.

Lemma sample_range (s : sync) j : pos (s_rate s) -> j < s_size s ->
  (s_start s <= sample_time s (Z.of_nat j))%Qc /\ (sample_time s (Z.of_nat j) <= last_time s)%Qc.
Proof.
  intros Hr Hj. split.
  - rewrite <- (sample_0 s). apply sample_mono; [exact Hr|lia].
  - apply sample_mono; [exact Hr|lia].
Qed.

(** the two halves *)
Lemma exclude_halves (X : sigset) start stop : wf_set X -> positive_rates X -> ss_signals X <> [] ->
  plain (ss_tags X) ->
  exists first last left right,
    num_min (map s_start (ss_signals X)) = Ok first /\
    (x <- mapM s_stop (ss_signals X) ;; num_max x) = Ok last /\
    extract_in kone X first start = Ok left /\ extract_in kone X stop last = Ok right /\
    cuts (upto start) (ss_signals X) (ss_signals left) /\ cuts (from stop) (ss_signals X) (ss_signals right) /\
    extract_t kone X start stop true = join kone left [ASet right].
Proof.
  intros HX Hr Hne Hp.
  assert (Est : mapM s_stop (ss_signals X) = Ok (map last_time (ss_signals X))).
  { apply mapM_ok_all. intros s Hs. apply s_stop_pos, Hr, Hs. }
  destruct (num_min (map s_start (ss_signals X))) as [first|e] eqn:Ef.
  2:{ destruct (ss_signals X); [congruence|discriminate]. }
  destruct (num_max (map last_time (ss_signals X))) as [last|e] eqn:El.
  2:{ destruct (ss_signals X); [congruence|discriminate]. }
  destruct (extract_in_ok kone X first start HX Hr Hp) as (left & Hleft).
  destruct (extract_in_ok kone X stop last HX Hr Hp) as (right & Hright).
  exists first, last, left, right. split; [reflexivity|]. rewrite Est. cbn [bind]. split; [exact El|].
  split; [exact Hleft|]. split; [exact Hright|].
  destruct (num_min_spec _ _ Ef) as [_ Hmin]. destruct (num_max_spec _ _ El) as [_ Hmax].
  split; [|split].
  - eapply cuts_ext; [|apply (extract_in_inv kone X _ _ left HX Hr Hleft)].
    intros s j Hs Hj. unfold within, upto. replace (Qcleb first (sample_time s (Z.of_nat j))) with true; [reflexivity|].
    symmetry. apply Qcleb_le. eapply Qcle_trans; [apply Hmin, in_map, Hs|]. apply sample_range; [apply Hr, Hs|exact Hj].
  - eapply cuts_ext; [|apply (extract_in_inv kone X _ _ right HX Hr Hright)].
    intros s j Hs Hj. unfold within, from. replace (Qcleb (sample_time s (Z.of_nat j)) last) with true; [apply andb_true_r|].
    symmetry. apply Qcleb_le. eapply Qcle_trans; [apply sample_range; [apply Hr, Hs|exact Hj]|]. apply Hmax, in_map, Hs.
  - unfold extract_t. rewrite Ef. cbn [bind]. rewrite Hleft. cbn [bind]. rewrite Est. cbn [bind]. rewrite El. cbn [bind].
    rewrite Hright. reflexivity.
Qed.

Lemma cuts_bounds P (X Y : sigset) : positive_rates X -> cuts P (ss_signals X) (ss_signals Y) ->
  forall s, In s (ss_signals Y) -> P (s_start s) = true /\ P (last_time s) = true.
Proof.
  intros Hr Hc s Hs. destruct (cuts_In _ _ _ _ Hc Hs) as (s0 & i & n & G1 & [G2 G3] & G4 & ->).
  assert (E : last_time (cut s0 i n) = sample_time s0 (Z.of_nat (i + (n - 1)))).
  { unfold last_time. simpl s_size. replace (Z.of_nat n - 1)%Z with (Z.of_nat (n - 1)) by lia. apply cut_time, Hr, G1. }
  rewrite E. simpl s_start. split; apply G3; lia.
Qed.

Lemma sorted_app {B} (R : B -> B -> Prop) l1 l2 : StronglySorted R l1 -> StronglySorted R l2 ->
  (forall x y, In x l1 -> In y l2 -> R x y) -> StronglySorted R (l1 ++ l2).
Proof.
  intros H1 H2 H. induction H1 as [|x l1 Hs IH Hf]; [exact H2|]. simpl. constructor.
  - apply IH. intros; apply H; [right|]; assumption.
  - apply Forall_app. split; [exact Hf|]. apply Forall_forall. intros y Hy. apply H; [left; reflexivity|exact Hy].
Qed.

Lemma cuts_infos P (X Y : sigset) : wf_set X -> positive_rates X -> cuts P (ss_signals X) (ss_signals Y) ->
  forall s, In s (ss_signals Y) -> length (s_data s) = t_n (ss_tags X) /\ pos (s_rate s) /\
    (s_start s <= last_time s)%Qc /\ s_data s <> [].
Proof.
  intros HX Hr Hc s Hs. destruct (cuts_In _ _ _ _ Hc Hs) as (s0 & i & n & G1 & G2 & G3 & ->).
  split; [simpl; rewrite map_length; apply (ws_chan X HX s0 G1)|]. split; [exact (Hr s0 G1)|].
  split; [apply cut_inside; [apply Hr, G1|apply G2|lia]|].
  simpl. intros E. apply map_eq_nil in E. apply (so_chan _ (ws_sync X HX s0 G1) E).
Qed.

Theorem exclude_spec (X : sigset) start stop : wf_set X -> positive_rates X -> plain (ss_tags X) ->
  ss_signals X <> [] -> top_tagged (ss_tags X) ->
  (forall l1 l2, cuts (upto start) (ss_signals X) l1 -> cuts (from stop) (ss_signals X) l2 -> forall s s', In s l1 -> In s' l2 -> before s s') ->
  exists Y l1 l2, extract_t kone X start stop true = Ok Y /\ ss_tags Y = ss_tags X /\ ss_signals Y = l1 ++ l2 /\
    cuts (upto start) (ss_signals X) l1 /\ cuts (from stop) (ss_signals X) l2.
Proof.
  intros HX Hr Hp Hne Ht Hle.
  destruct (exclude_halves X start stop HX Hr Hne Hp) as (first & last & left & right & _ & _ & HL & HR & CL & CR & ->).
  destruct (extract_in_inv kone X _ _ left HX Hr HL) as (CL' & DL & TL).
  destruct (extract_in_inv kone X _ _ right HX Hr HR) as (CR' & DR & TR).
  assert (Htags : forall l P t', cuts P (ss_signals X) l -> set_tags l None (TObj (ss_tags X)) = Ok t' -> t' = ss_tags X).
  { intros l P t' Hc Hs. destruct l as [|s l].
    - rewrite (set_tags_nil _ Hp), (top_tagged_infer _ (ws_tags X HX) Hp Ht) in Hs. congruence.
    - destruct (cuts_tags X _ _ HX Hp Hc) as (t2 & T2 & _ & E2). rewrite E2 in T2 by discriminate. congruence. }
  pose proof (Htags _ _ _ CL' TL) as EL. pose proof (Htags _ _ _ CR' TR) as ER.
  assert (HwL : wf_set left) by (eapply (extract_in_wf kone QA_ord); eauto).
  assert (HwR : wf_set right) by (eapply (extract_in_wf kone QA_ord); eauto).
  set (t := ss_tags X) in *.
  assert (Hj : join kone left [ASet right] = set_of_syncs (TObj t) (ss_signals left ++ ss_signals right)).
  { unfold join, set_new. cbn [mapM]. rewrite EL. rewrite <- EL at 1. rewrite (reorder_self kone left HwL). cbn [bind].
    rewrite <- ER at 1. rewrite (reorder_self kone right HwR). cbn [bind concat]. rewrite app_nil_r. reflexivity. }
  rewrite Hj. rewrite chain_set_ok.
  - assert (exists t', set_tags (ss_signals left ++ ss_signals right) None (TObj t) = Ok t' /\ t' = t) as (t' & -> & ->).
    { destruct (set_tags_obj_ok (ss_signals left ++ ss_signals right) t (ws_tags X HX) Hp) as (t' & T1 & T2 & T3).
      - destruct (ss_signals left ++ ss_signals right) as [|s l] eqn:E; [left; reflexivity|]. right. exists s.
        split; [reflexivity|]. assert (Hs : In s (ss_signals left ++ ss_signals right)) by (rewrite E; left; reflexivity).
        assert (G : length (s_data s) = t_n t /\ s_data s <> []).
        { apply in_app_iff in Hs as [Hs|Hs].
          - destruct (cuts_infos _ X left HX Hr CL s Hs) as (? & ? & ? & ?). auto.
          - destruct (cuts_infos _ X right HX Hr CR s Hs) as (? & ? & ? & ?). auto. }
        destruct G as [G1 G2]. split; [exact G1|]. rewrite <- G1. destruct (s_data s); [congruence|simpl; lia].
      - exists t'. split; [exact T1|]. destruct (ss_signals left ++ ss_signals right) as [|s l] eqn:E; [|apply T3; discriminate].
        pose proof (top_tagged_infer _ (ws_tags X HX) Hp Ht) as TT. fold t in TT. rewrite (set_tags_nil _ Hp), TT in T1. congruence. }
    cbn [bind]. eexists. exists (ss_signals left), (ss_signals right). split; [reflexivity|]. simpl. auto.
  - intros s Hs. apply in_app_iff in Hs as [Hs|Hs]; [apply (cuts_infos _ X left HX Hr CL s Hs)|apply (cuts_infos _ X right HX Hr CR s Hs)].
  - intros s Hs. apply in_app_iff in Hs as [Hs|Hs]; [apply (cuts_infos _ X left HX Hr CL s Hs)|apply (cuts_infos _ X right HX Hr CR s Hs)].
  - intros s Hs. apply in_app_iff in Hs as [Hs|Hs]; [apply (cuts_infos _ X left HX Hr CL s Hs)|apply (cuts_infos _ X right HX Hr CR s Hs)].
  - apply sorted_app; [eapply cuts_before; [exact Hr|exact CL|apply wf_before, HX]|eapply cuts_before; [exact Hr|exact CR|apply wf_before, HX]|].
    exact (Hle _ _ CL CR).
Qed.
Lemma ordered_halves (X : sigset) start stop : positive_rates X -> (start <= stop)%Qc ->
  forall l1 l2, cuts (upto start) (ss_signals X) l1 -> cuts (from stop) (ss_signals X) l2 -> forall s s', In s l1 -> In s' l2 -> before s s'.
Proof.
  intros Hr Hle l1 l2 CL CR s s' Hs Hs'. destruct (cuts_bounds _ X (mkSet l1 (ss_tags X)) Hr CL s Hs) as [_ B1].
  destruct (cuts_bounds _ X (mkSet l2 (ss_tags X)) Hr CR s' Hs') as [B2 _].
  apply Qcleb_le in B1, B2. unfold before. eapply Qcle_trans; [exact B1|]. eapply Qcle_trans; [exact Hle|exact B2].
Qed.

Lemma count_iscut : forall P (s : sync) i n, iscut P s i n -> count P s = n.
Proof.
  intros P s i n [G1 G2]. unfold count. 
    assert (E : filter (fun i => P (sample_time s (Z.of_nat i))) (seq 0 (s_size s)) = seq i n).
    { replace (seq 0 (s_size s)) with (seq 0 i ++ seq i n ++ seq (i + n) (s_size s - i - n)).
      2:{ rewrite <- seq_app. rewrite <- (seq_app i). f_equal. lia. }
      assert (F : forall a m b, a + m <= s_size s -> (forall j, a <= j < a + m -> P (sample_time s (Z.of_nat j)) = b) ->
                  filter (fun i => P (sample_time s (Z.of_nat i))) (seq a m) = if b then seq a m else []).
      { clear. intros a m b _. revert a. induction m as [|m IH]; intros a H; [destruct b; reflexivity|]. cbn [seq filter].
        rewrite (H a) by lia. rewrite IH by (intros; apply H; lia). destruct b; reflexivity. }
      rewrite !filter_app. rewrite (F 0 i false), (F i n true), (F (i + n) (s_size s - i - n) false); try lia.
      - simpl. apply app_nil_r.
      - intros j Hj. apply not_true_iff_false. rewrite <- G2 by lia. lia.
      - intros j Hj. apply G2; lia.
      - intros j Hj. apply not_true_iff_false. rewrite <- G2 by lia. lia. }
    rewrite E. apply seq_length.
Qed.

Theorem exclude_empty (X : sigset) start stop : ss_signals X = [] -> extract_t kone X start stop true = Err ValueError.
Proof. intros E. unfold extract_t. rewrite E. reflexivity. Qed.

(** *** a channel without tag makes reorder fail *)
Lemma reorder_untagged (Y : sigset) t c : tags_valid (ss_tags Y) -> tags_valid t ->
  tags_eqb (ss_tags Y) t = false -> same_keys (ss_tags Y) t -> aliases_kept t (ss_tags Y) ->
  ss_signals Y <> [] -> c < nb_channels Y -> (forall k l, reads t k l -> ~ In c l) ->
  reorder kone Y (TObj t) = Err KeyError.
Proof.
  intros HvY Hv Hne Hk Hal Hs Hc Hun. destruct (reorder_reduce kone Y t HvY Hv Hne Hk Hal) as (inv & I1 & I2 & ->).
  assert (E : mapM inv (seq 0 (nb_channels Y)) = Err KeyError).
  { apply mapM_err_all.
    - intros i _. destruct (existsb (fun kl => memb Nat.eqb i (snd kl)) (t_dict t)) eqn:E.
      + right. apply existsb_exists in E as ([k l] & Hin & Hm). apply (memb_In _ nat_eqb_iff) in Hm. simpl in Hm.
        apply In_nth_error in Hm as [p Hp]. destruct (I1 k l p i Hin Hp) as (? & c0 & _ & _ & E). eauto.
      + left. apply I2. intros k l Hkl Hi. rewrite <- not_true_iff_false in E. apply E. apply existsb_exists.
        exists (k, l). split; [exact Hkl|]. apply (memb_In _ nat_eqb_iff), Hi.
    - exists c. split; [apply in_seq; lia|]. apply I2, Hun. }
  destruct (ss_signals Y) as [|s l]; [congruence|]. cbn [mapM]. rewrite E. reflexivity.
Qed.

Lemma tags_eqb_n (t t' : tags) : plain t -> plain t' -> t_n t <> t_n t' -> tags_eqb t t' = false.
Proof.
  intros Hp Hp' Hn. unfold tags_eqb. rewrite (plain_indices t Hp), (plain_indices t' Hp'). simpl.
  destruct (Nat.eqb_spec (t_n t) (t_n t')); [congruence|]. apply andb_false_r.
Qed.

Lemma same_dict_keys (t t' : tags) : t_dict t = t_dict t' -> same_keys t t'.
Proof. intros E k n. unfold reads. rewrite E. reflexivity. Qed.
Lemma same_dict_aliases (t t' : tags) : tags_valid t -> tags_valid t' -> t_dict t = t_dict t' -> aliases_kept t t'.
Proof.
  intros Hv Hv' E k l p k2 l2 p2 c m m2 H1 H2 H3 H4 H5 H6. unfold reads in *. rewrite <- E in H5, H6.
  pose proof (proj1 (reads_dget _ _ _ Hv) H1). pose proof (proj1 (reads_dget _ _ _ Hv) H2).
  pose proof (proj1 (reads_dget _ _ _ Hv) H5). pose proof (proj1 (reads_dget _ _ _ Hv) H6). congruence.
Qed.

Theorem exclude_untagged (X : sigset) start stop : wf_set X -> positive_rates X -> plain (ss_tags X) ->
  ss_signals X <> [] -> (forall k l, reads (ss_tags X) k l -> ~ In (t_n (ss_tags X) - 1) l) ->
  (forall s, In s (ss_signals X) -> count (upto start) s <= 1) ->
  (exists s, In s (ss_signals X) /\ 2 <= count (from stop) s) ->
  extract_t kone X start stop true = Err KeyError.
Proof.
  intros HX Hr Hp Hne Hun Hbeg Hend.
  destruct (exclude_halves X start stop HX Hr Hne Hp) as (first & last & left & right & _ & _ & HL & HR & CL & CR & ->).
  destruct (extract_in_inv kone X _ _ left HX Hr HL) as (CL' & DL & TL).
  destruct (extract_in_inv kone X _ _ right HX Hr HR) as (CR' & DR & TR).
  assert (HwL : wf_set left) by (eapply (extract_in_wf kone QA_ord); eauto).
  assert (HwR : wf_set right) by (eapply (extract_in_wf kone QA_ord); eauto).
  assert (Hcount : forall P (s : sync) i n, iscut P s i n -> count P s = n) by (intros; eapply count_iscut; eassumption).
  assert (EL : ss_signals left = []).
  { destruct (ss_signals left) as [|s l] eqn:E; [reflexivity|]. exfalso.
    destruct (cuts_In _ _ _ s CL) as (s0 & i & n & G1 & G2 & G3 & _); [left; reflexivity|].
    specialize (Hbeg s0 G1). rewrite (Hcount _ _ _ _ G2) in Hbeg. lia. }
  assert (ER : ss_signals right <> []).
  { destruct Hend as (s & Hs & Hc). assert (G : forall l l', cuts (from stop) l l' -> In s l -> l' <> []).
    { induction 1 as [|s0 l l' i n Hi Hn Hcc IH|s0 l l' i n Hi Hn Hcc IH]; [intros []|discriminate|].
      intros [->|Hin]; [rewrite (Hcount _ _ _ _ Hi) in Hc; lia|auto]. }
    eapply G; eauto. }
  assert (ETR : ss_tags right = ss_tags X).
  { destruct (cuts_tags X _ _ HX Hp CR) as (t2 & T2 & _ & E2). rewrite E2 in T2 by exact ER. congruence. }
  assert (HpL : plain (ss_tags left)) by (intros k l Hk; apply (Hp k l); unfold reads in *; rewrite <- DL; exact Hk).
  rewrite EL, (set_tags_nil _ Hp) in TL.
  assert (Hpos : 0 < t_n (ss_tags X)).
  { destruct (ss_signals X) as [|s l] eqn:E; [congruence|]. assert (Hs : In s (ss_signals X)) by (rewrite E; left; reflexivity).
    rewrite <- (ws_chan X HX s Hs). pose proof (so_chan _ (ws_sync X HX s Hs)). destruct (s_data s); [congruence|simpl; lia]. }
  assert (Hlt : t_n (ss_tags left) < t_n (ss_tags X)).
  { destruct (tags_copy_infer_n _ (ws_tags X HX) Hp) as (t' & T1 & _ & _ & _ & T2). rewrite T1 in TL. injection TL as <-.
    enough (t_n t' <= t_n (ss_tags X) - 1) by lia. apply T2. intros k l c Hk Hc.
    pose proof (tv_range _ (ws_tags X HX) _ _ _ Hk Hc). assert (c <> t_n (ss_tags X) - 1); [|lia].
    intros ->. apply (Hun k l Hk Hc). }
  unfold join, set_new. cbn [mapM]. rewrite (reorder_self kone left HwL). cbn [bind].
  rewrite (reorder_untagged right (ss_tags left) (t_n (ss_tags X) - 1)); [reflexivity|apply HwR|apply HwL| | | |exact ER| |].
  - rewrite ETR. apply tags_eqb_n; [exact Hp|exact HpL|lia].
  - apply same_dict_keys. congruence.
  - apply same_dict_aliases; [apply HwL|apply HwR|congruence].
  - rewrite nb_channels_wf; [rewrite ETR; lia|exact HwR|]. rewrite ETR. apply plain_no; [exact Hp|simpl; auto 10].
  - intros k l Hk. apply Hun with (k := k). unfold reads in *. rewrite <- DL. exact Hk.
Qed.

Lemma restriction_app_tracks (X Y : sigset) start stop l1 l2 : wf_set X -> positive_rates X ->
  ss_tags Y = ss_tags X -> ss_signals Y = l1 ++ l2 ->
  cuts (upto start) (ss_signals X) l1 -> cuts (from stop) (ss_signals X) l2 ->
  forall k p gs, tracks X k p gs -> exists gs1 gs2, tracks Y k p (gs1 ++ gs2) /\
    restriction (upto start) gs gs1 /\ restriction (from stop) gs gs2.
Proof.
  intros HX Hr Et Es C1 C2 k p gs (l & c & H1 & H2 & H3).
  destruct (cuts_segs _ _ _ c gs (ws_sync X HX) Hr C1 H3) as (gs1 & F1 & R1).
  destruct (cuts_segs _ _ _ c gs (ws_sync X HX) Hr C2 H3) as (gs2 & F2 & R2).
  exists gs1, gs2. split; [|auto]. exists l, c. rewrite Et, Es. split; [exact H1|]. split; [exact H2|]. apply Forall2_app; assumption.
Qed.
End Exclude.
