(** Inventories: content, selections, provenance of what is read. *)
From Verif Require Import Base BaseLemmas SliceLemmas Arith OrdLaws TagsModel SpecTags TagsProofs SyncModel SetModel SpecSet SetProofs
  SpecSelect TrackProofs SelectProofs OrderProofs JoinProofs GlobModel InvModel SpecInv GlobProofs.
Open Scope nat_scope.

Section Inv.
Context {A : Arith} (L : OrdLaws A) {V K : Type} (kone : K).
Notation sync := (sync A V K).
Notation sigset := (@sigset A V K).
Notation seg := (@seg A V K).

(** ** content *)
Lemma inv_extend_spec l : forall inv : list sigset, exists sets, accepted l sets /\
  inv_extend inv l = (inv ++ sets, if forallb (fun m => match m with MSet _ => true | MOther => false end) l then Ok tt else Err ValueError).
Proof.
  induction l as [|m l IH]; intros inv; simpl.
  - exists []. split; [constructor|]. rewrite app_nil_r. reflexivity.
  - destruct m as [X|]; simpl.
    + destruct (IH (inv ++ [X])) as (sets & H1 & H2). exists (X :: sets). split; [constructor; exact H1|]. rewrite H2, <- app_assoc. reflexivity.
    + exists []. split; [constructor|]. rewrite app_nil_r. reflexivity.
Qed.
Lemma inv_extend_outcome l (inv : list sigset) :
  (snd (inv_extend inv l) = Err ValueError <-> In MOther l) /\ (snd (inv_extend inv l) = Ok tt <-> ~ In MOther l).
Proof.
  destruct (inv_extend_spec l inv) as (sets & _ & ->). cbn [snd]. destruct (forallb _ l) eqn:E.
  - rewrite forallb_forall in E. assert (N : ~ In MOther l) by (intros H; specialize (E _ H); discriminate).
    split; split; intros H; try reflexivity; try discriminate; try contradiction; exact N.
  - assert (I : In MOther l).
    { clear sets inv. induction l as [|[X|] l IH]; [discriminate| |left; reflexivity]. right. apply IH, E. }
    split; split; intros H; try reflexivity; try discriminate; try contradiction; exact I.
Qed.
Lemma inv_do_adds (inv : list sigset) o : exists sets, adds o sets /\ inv_do inv o = inv ++ sets.
Proof.
  destruct o as [m|l|other]; simpl.
  - destruct m as [X|]; simpl; [exists [X]|exists []; rewrite app_nil_r]; (split; [|reflexivity]); repeat constructor.
  - destruct (inv_extend_spec l inv) as (sets & H1 & H2). exists sets. rewrite H2. split; [constructor; exact H1|reflexivity].
  - exists other. split; [constructor|reflexivity].
Qed.
Theorem inv_history ops : forall inv : list sigset, exists sets, Forall2 adds ops sets /\ fold_left inv_do ops inv = inv ++ concat sets.
Proof.
  induction ops as [|o ops IH]; intros inv; simpl.
  - exists []. split; [constructor|]. simpl. rewrite app_nil_r. reflexivity.
  - destruct (inv_do_adds inv o) as (s & H1 & ->). destruct (IH (inv ++ s)) as (sets & H2 & ->).
    exists (s :: sets). split; [constructor; assumption|]. simpl. rewrite app_assoc. reflexivity.
Qed.

(** ** [kept] *)
Lemma kept_ext {B C} (P P' : B -> Prop) (R R' : B -> C -> Prop) l l' :
  (forall x, In x l -> (P x <-> P' x)) -> (forall x y, In x l -> R x y -> R' x y) -> kept P R l l' -> kept P' R' l l'.
Proof.
  intros HP HR H. induction H as [|x l l' Hx _ IH|x y l l' Hx Hxy _ IH]; [constructor| |].
  - apply kp_drop; [rewrite <- HP by (left; reflexivity); exact Hx|]. apply IH; [intros; apply HP; right; assumption|intros; apply HR; [right|]; assumption].
  - apply kp_keep; [apply HP; [left; reflexivity|exact Hx]|apply HR; [left; reflexivity|exact Hxy]|].
    apply IH; [intros; apply HP; right; assumption|intros; apply HR; [right|]; assumption].
Qed.
Lemma kept_In_r {B C} (P : B -> Prop) (R : B -> C -> Prop) l l' y : kept P R l l' -> In y l' -> exists x, In x l /\ P x /\ R x y.
Proof.
  induction 1 as [|x l l' Hx _ IH|x z l l' Hx Hxy _ IH]; [intros []| |].
  - intros Hy. destruct (IH Hy) as (x' & ? & ?). exists x'. simpl; auto.
  - intros [<-|Hy]; [exists x; simpl; auto|]. destruct (IH Hy) as (x' & ? & ?). exists x'. simpl; auto.
Qed.
Lemma kept_filter {B} (P : B -> Prop) (f : B -> bool) l : (forall x, f x = true <-> P x) -> kept P eq l (filter f l).
Proof.
  intros Hf. induction l as [|x l IH]; simpl; [constructor|]. destruct (f x) eqn:E.
  - apply kp_keep; [apply Hf, E|reflexivity|exact IH].
  - apply kp_drop; [intros H; apply Hf in H; congruence|exact IH].
Qed.
Lemma kept_filter_iff {B} (P : B -> Prop) (f : B -> bool) l l' : (forall x, f x = true <-> P x) -> (kept P eq l l' <-> l' = filter f l).
Proof.
  intros Hf. split; [|intros ->; apply kept_filter, Hf]. induction 1 as [|x l l' Hx _ IH|x y l l' Hx <- _ IH]; simpl; [reflexivity| |].
  - destruct (f x) eqn:E; [apply Hf in E; contradiction|exact IH].
  - rewrite (proj2 (Hf x) Hx). congruence.
Qed.

Lemma has_runs_b (X : sigset) : negb (nb_runs X =? 0) = true <-> ss_signals X <> [].
Proof. unfold nb_runs. destruct (ss_signals X); simpl; split; intros; congruence. Qed.

Theorem inv_extract_spec (inv : list sigset) a b ex inv' :
  inv_extract_t kone inv a b ex = Ok inv' <->
  exists l, Forall2 (fun X Y => extract_t kone X a b ex = Ok Y) inv l /\ kept (fun Y => ss_signals Y <> []) eq l inv'.
Proof.
  unfold inv_extract_t. rewrite bind_ok. split.
  - intros (l & H1 & H2). exists l. split; [apply mapM_Forall2, H1|]. injection H2 as <-. apply kept_filter, has_runs_b.
  - intros (l & H1 & H2). exists l. split; [apply mapM_Forall2, H1|]. f_equal. symmetry. apply (kept_filter_iff _ _ _ _ has_runs_b), H2.
Qed.
Theorem inv_select_runs_spec (inv : list sigset) runs inv' :
  inv_select_runs kone inv runs = Ok inv' <->
  length runs = length inv /\
  exists l, Forall2 (fun Xr Y => select_runs kone (fst Xr) (snd Xr) = Ok Y) (combine inv runs) l /\ kept (fun Y => ss_signals Y <> []) eq l inv'.
Proof.
  unfold inv_select_runs, check. destruct (Nat.eqb_spec (length runs) (length inv)) as [E|E]; simpl.
  - rewrite bind_ok. split.
    + intros (l & H1 & H2). split; [exact E|]. exists l. split; [apply mapM_Forall2, H1|]. injection H2 as <-. apply kept_filter, has_runs_b.
    + intros (_ & l & H1 & H2). exists l. split; [apply mapM_Forall2, H1|]. f_equal. symmetry. apply (kept_filter_iff _ _ _ _ has_runs_b), H2.
  - split; [discriminate|]. intros [H _]. congruence.
Qed.

(** ** channels *)
Lemma inv_tags_In (inv : list sigset) k : In k (inv_tags inv) <-> exists X l, In X inv /\ reads (ss_tags X) k l.
Proof.
  unfold inv_tags. rewrite (In_dedup _ string_eqb_iff), in_concat. split.
  - intros (ks & H1 & H2). apply in_map_iff in H1 as (X & <- & HX). unfold dkeys in H2. apply in_map_iff in H2 as ([k' l] & E & Hl). simpl in E. subst. eauto.
  - intros (X & l & HX & Hl). exists (dkeys (t_dict (ss_tags X))). split; [apply in_map_iff; eauto|]. apply in_map_iff. exists (k, l). auto.
Qed.

Lemma get_keys_spec (X : sigset) keys idx : tags_valid (ss_tags X) -> get_keys X keys = Ok idx ->
  forall i, In i idx <-> exists k l, In k keys /\ reads (ss_tags X) k l /\ In i l.
Proof.
  intros Hv H i. unfold get_keys in H. apply bind_ok in H as (ll & H1 & H2). injection H2 as <-.
  rewrite (In_dedup _ nat_eqb_iff), (mapM_concat_In _ _ _ _ H1). split.
  - intros (k & l & Hk & E & Hi). apply bind_ok in E as (_ & _ & E). injection E as <-.
    destruct (dget k (t_dict (ss_tags X))) as [l|] eqn:D; [|destruct Hi]. exists k, l. split; [exact Hk|]. split; [|exact Hi]. apply (reads_dget _ _ _ Hv), D.
  - intros (k & l & Hk & Hl & Hi). apply (reads_dget _ _ _ Hv) in Hl.
    apply mapM_Forall2 in H1. apply In_nth_error in Hk as [n Hn]. destruct (Forall2_nth_error _ _ _ _ _ H1 Hn) as (y & Hy & Ey).
    exists k, y. split; [eapply nth_error_In; eauto|]. split; [exact Ey|]. apply bind_ok in Ey as (_ & _ & Ey). injection Ey as <-. rewrite Hl. exact Hi.
Qed.
Lemma get_keys_ok (X : sigset) keys : (forall l, ~ reads (ss_tags X) "get" l) -> exists idx, get_keys X keys = Ok idx.
Proof.
  intros Hg. unfold get_keys.
  assert (D : method (ss_tags X) "get" = Ok tt).
  { unfold method, shadows, dmem. destruct (dget "get" (t_dict (ss_tags X))) as [l|] eqn:E; [|reflexivity]. apply dget_In in E. destruct (Hg l E). }
  rewrite D. erewrite (mapM_ok_all _ (fun k => match dget k (t_dict (ss_tags X)) with Some l => l | None => [] end)); [simpl; eauto|]. intros k _. reflexivity.
Qed.

Lemma sel_chosen (X : sigset) keys idx : tags_valid (ss_tags X) -> get_keys X keys = Ok idx ->
  forall i, chosen X (SelSeq (map (fun i => CInt (Z.of_nat i)) idx)) i <-> exists k l, In k keys /\ reads (ss_tags X) k l /\ In i l.
Proof.
  intros Hv H i. rewrite <- (get_keys_spec X keys idx Hv H). cbn [chosen]. split.
  - intros (c & Hc & Hn). apply in_map_iff in Hc as (j & <- & Hj). destruct Hn as [E _]. assert (j = i) by lia. subst. exact Hj.
  - intros Hi. exists (CInt (Z.of_nat i)). split; [apply in_map_iff; eauto|]. split; [reflexivity|].
    apply (get_keys_spec X keys idx Hv H) in Hi as (k & l & _ & Hl & Hi). exact (tv_range _ Hv _ _ _ Hl Hi).
Qed.

Lemma select_keys_reduced (X Y : sigset) keys idx : wf_set X -> plain (ss_tags X) -> get_keys X keys = Ok idx ->
  select_channels kone X (SelSeq (map (fun i => CInt (Z.of_nat i)) idx)) = Ok Y -> reduced (fun k => In k keys) X Y.
Proof.
  intros HX Hp Hk H. destruct (select_channels_spec kone X _ Y HX Hp H) as (sel & S1 & S2 & S3 & _ & S5 & S6).
  assert (E : forall i, In i sel <-> exists k l, In k keys /\ reads (ss_tags X) k l /\ In i l).
  { intros i. rewrite S2. apply sel_chosen; [apply (ws_tags X HX)|exact Hk]. }
  exists sel. split; [exact S1|]. split; [exact E|]. split; [exact S3|]. split; [|exact S6].
  intros k n. rewrite S5. split; intros (l & Hl & Hn & Hi); exists l; (split; [exact Hl|]); (split; [exact Hn|]); intros i Hl'; apply S2, Hi, Hl'.
Qed.

Theorem inv_select_channels_spec (inv : list sigset) keys inv' :
  (forall X, In X inv -> wf_set X) -> (forall X, In X inv -> plain (ss_tags X)) -> inv_select_channels kone inv keys = Ok inv' ->
  kept (has_channel (fun k => In k keys)) (reduced (fun k => In k keys)) inv inv'.
Proof.
  intros HW HP H. unfold inv_select_channels in H. apply bind_ok in H as (l & H1 & H2). injection H2 as <-.
  revert l H1. induction inv as [|X inv IH]; intros l H1.
  - injection H1 as <-. constructor.
  - cbn [mapM] in H1. apply bind_ok in H1 as (o & E & H1). apply bind_ok in H1 as (l' & H1 & H2). injection H2 as <-.
    specialize (IH (fun Z HZ => HW Z (or_intror HZ)) (fun Z HZ => HP Z (or_intror HZ)) l' H1).
    pose proof (HW X (or_introl eq_refl)) as WX. pose proof (HP X (or_introl eq_refl)) as PX.
    apply bind_ok in E as (idx & Hk & E). pose proof (get_keys_spec X keys idx (ws_tags X WX) Hk) as Hi.
    destruct (length idx =? 0) eqn:Z0.
    + injection E as <-. cbn [somes]. apply kp_drop; [|exact IH]. intros (k & l0 & i & H3 & H4 & H5).
      assert (Hin : In i idx) by (apply Hi; eauto). destruct idx; [destruct Hin|discriminate].
    + apply bind_ok in E as (Y & HY & E). injection E as <-. cbn [somes]. apply kp_keep; [|eapply select_keys_reduced; eauto|exact IH].
      destruct idx as [|i idx]; [discriminate|]. destruct (proj1 (Hi i) (or_introl eq_refl)) as (k & l0 & ? & ? & ?). exists k, l0, i. auto.
Qed.

Theorem inv_select_channels_ok (inv : list sigset) keys :
  (forall X, In X inv -> wf_set X) -> (forall X, In X inv -> plain (ss_tags X)) -> (forall X l, In X inv -> ~ reads (ss_tags X) "get" l) ->
  exists inv', inv_select_channels kone inv keys = Ok inv'.
Proof.
  intros HW HP HG. unfold inv_select_channels.
  enough (exists l, mapM (fun e : sigset => idx <- get_keys e keys ;;
         if length idx =? 0 then Ok None
         else s <- select_channels kone e (SelSeq (map (fun i => CInt (Z.of_nat i)) idx)) ;; Ok (Some s)) inv = Ok l) as [l ->] by (simpl; eauto).
  induction inv as [|X inv IH]; [exists []; reflexivity|]. destruct IH as [l Hl]; [intros; apply HW; right; assumption|intros; apply HP; right; assumption|intros; apply HG; right; assumption|].
  pose proof (HW X (or_introl eq_refl)) as WX. pose proof (HP X (or_introl eq_refl)) as PX.
  destruct (get_keys_ok X keys (fun l => HG X l (or_introl eq_refl))) as [idx Hk]. cbn [mapM]. rewrite Hk. cbn [bind].
  destruct (length idx =? 0) eqn:Z0; [cbn [bind]; rewrite Hl; simpl; eauto|].
  destruct (select_channels_ok kone X (SelSeq (map (fun i => CInt (Z.of_nat i)) idx)) WX PX) as [Y HY].
  - intros c Hc. apply in_map_iff in Hc as (i & <- & Hi). apply (get_keys_spec X keys idx (ws_tags X WX) Hk) in Hi as (k & l0 & _ & Hr & Hi).
    pose proof (tv_range _ (ws_tags X WX) _ _ _ Hr Hi). simpl. lia.
  - right. destruct idx as [|i idx]; [discriminate|]. exists i. apply (sel_chosen X keys _ (ws_tags X WX) Hk).
    apply (get_keys_spec X keys _ (ws_tags X WX) Hk). left; reflexivity.
  - rewrite HY. cbn [bind]. rewrite Hl. simpl. eauto.
Qed.

Theorem inv_filter_spec (inv : list sigset) pats inv' :
  (forall X, In X inv -> wf_set X) -> (forall X, In X inv -> plain (ss_tags X)) -> inv_filter kone inv pats = Ok inv' ->
  kept (has_channel (fun k => exists p, In p pats /\ shell_match p k)) (reduced (fun k => exists p, In p pats /\ shell_match p k)) inv inv'.
Proof.
  intros HW HP H. unfold inv_filter in H. apply inv_select_channels_spec in H; try assumption.
  assert (Keys : forall X k l, In X inv -> reads (ss_tags X) k l ->
    (In k (filter (fun t => existsb (fnmatch t) pats) (inv_tags inv)) <-> exists p, In p pats /\ shell_match p k)).
  { intros X k l HX Hl. rewrite filter_In, existsb_exists. split.
    - intros [_ (p & Hp & Hm)]. exists p. split; [exact Hp|apply fnmatch_spec, Hm].
    - intros (p & Hp & Hm). split; [apply inv_tags_In; eauto|]. exists p. split; [exact Hp|apply fnmatch_spec, Hm]. }
  eapply kept_ext; [| |exact H].
  - intros X HX. split; intros (k & l & i & H1 & H2 & H3); exists k, l, i; (split; [|auto]); apply (Keys X k l HX H2), H1.
  - intros X Y HX (cs & S1 & S2 & S3). exists cs. split; [exact S1|]. split; [|exact S3].
    intros i. rewrite S2. split; intros (k & l & H1 & H2 & H3); exists k, l; (split; [|auto]); apply (Keys X k l HX H2), H1.
Qed.

(** ** what is recorded *)
Lemma records_tracks (X : sigset) k p g : wf_set X -> records X k p g <-> exists gs, tracks X k p gs /\ In g gs.
Proof.
  intros HX. split.
  - intros (s & Hs & l & c & Hl & Hp & Hg).
    assert (Hc : c < t_n (ss_tags X)) by (eapply (tv_range _ (ws_tags X HX)); [exact Hl|eapply nth_error_In; eauto]).
    assert (G : forall runs, (forall s, In s runs -> In s (ss_signals X)) -> exists gs, Forall2 (fun s g => is_seg s c g) runs gs).
    { induction runs as [|r runs IH]; intros Hr; [exists []; constructor|]. destruct IH as [gs Hgs]; [intros; apply Hr; right; assumption|].
      destruct (is_seg_exists r c) as [g' Hg']; [apply (ws_sync X HX), Hr; left; reflexivity|rewrite (ws_chan X HX) by (apply Hr; left; reflexivity); exact Hc|].
      exists (g' :: gs). constructor; assumption. }
    destruct (G (ss_signals X) (fun _ H => H)) as [gs Hgs]. exists gs. split; [exists l, c; auto|].
    apply In_nth_error in Hs as [i Hi]. destruct (Forall2_nth_error _ _ _ _ _ Hgs Hi) as (g' & Hg1 & Hg2).
    rewrite (is_seg_inj _ _ _ _ Hg Hg2). eapply nth_error_In; eauto.
  - intros (gs & (l & c & Hl & Hp & Hgs) & Hg). apply In_nth_error in Hg as [i Hi].
    destruct (Forall2_nth_error_r _ _ _ _ _ Hgs Hi) as (s & Hs & Hsg). exists s. split; [eapply nth_error_In; eauto|]. exists l, c. auto.
Qed.
Lemma records_size (X : sigset) k p g : records X k p g -> exists n, tag_size X k n.
Proof. intros (s & _ & l & c & Hl & _). exists (length l), l. auto. Qed.

Lemma reduced_records sel (X Y : sigset) k p g : wf_set X -> wf_set Y -> reduced sel X Y -> records Y k p g -> records X k p g.
Proof.
  intros HX HY (cs & _ & _ & _ & _ & HT) H. destruct (records_size _ _ _ _ H) as [n Hn]. apply records_tracks in H as (gs & H1 & H2); [|exact HY].
  apply records_tracks; [exact HX|]. exists gs. split; [apply (HT k n p gs Hn), H1|exact H2].
Qed.
Lemma reduced_size sel (X Y : sigset) k n : reduced sel X Y -> tag_size Y k n -> tag_size X k n.
Proof. intros (cs & _ & _ & _ & HS & _) H. apply HS in H as (l & H1 & H2 & _). exists l. auto. Qed.
Lemma reduced_plain sel (X Y : sigset) : reduced sel X Y -> plain (ss_tags X) -> plain (ss_tags Y).
Proof.
  intros HR HP k l Hl. assert (HS : tag_size Y k (length l)) by (exists l; auto). apply (reduced_size sel X) in HS as (l' & H' & _); [|exact HR]. exact (HP k l' H').
Qed.

Lemma join_list_holds (l : list sigset) Z : (forall X, In X l -> wf_set X) -> join_list kone l = Ok Z ->
  wf_set Z /\ holds (concat (map set_runs l)) Z /\ forall X, In X l -> same_keys (ss_tags X) (ss_tags Z).
Proof.
  intros HW H. destruct l as [|X l]; [discriminate|]. unfold join_list in H.
  assert (HA : forall Y : sigset, In (ASet Y) (map ASet l) -> wf_set Y).
  { intros Y HY. apply in_map_iff in HY as (Y' & E & HY). injection E as ->. apply HW. right. exact HY. }
  split.
  - eapply (join_wf kone L); [exact (HW X (or_introl eq_refl))| |exact HA|exact H]. intros s Hs. apply in_map_iff in Hs as (Y & E & _). discriminate.
  - destruct (join_holds kone L X _ Z (HW X (or_introl eq_refl)) HA H) as [H1 H2]. split.
    + rewrite map_map in H1. exact H1.
    + intros Y [<-|HY]; apply H2; [left; reflexivity|right; apply in_map, HY].
Qed.
Lemma in_set_runs (l : list sigset) t s : In (t, s) (concat (map set_runs l)) <-> exists X, In X l /\ t = ss_tags X /\ In s (ss_signals X).
Proof.
  rewrite in_concat. split.
  - intros (r & H1 & H2). apply in_map_iff in H1 as (X & <- & HX). unfold set_runs in H2. apply in_map_iff in H2 as (s' & E & Hs). injection E as <- <-. eauto.
  - intros (X & HX & -> & Hs). exists (set_runs X). split; [apply in_map, HX|apply in_map, Hs].
Qed.
Lemma holds_run base (Z : sigset) s' : holds base Z -> In s' (ss_signals Z) -> exists t s, In (t, s) base /\ same_run t s (ss_tags Z) s'.
Proof.
  intros (runs & HP & HF) Hs. apply In_nth_error in Hs as [i Hi]. destruct (Forall2_nth_error_r _ _ _ _ _ HF Hi) as ([t s] & Ht & HR).
  exists t, s. split; [eapply Permutation_in; [symmetry; exact HP|eapply nth_error_In; eauto]|exact HR].
Qed.
Lemma holds_run_l base (Z : sigset) t s : holds base Z -> In (t, s) base -> exists s', In s' (ss_signals Z) /\ same_run t s (ss_tags Z) s'.
Proof.
  intros (runs & HP & HF) Hs. apply (Permutation_in _ HP) in Hs. apply In_nth_error in Hs as [i Hi]. destruct (Forall2_nth_error _ _ _ _ _ HF Hi) as (s' & Ht & HR).
  exists s'. split; [eapply nth_error_In; eauto|exact HR].
Qed.
Lemma join_list_records (l : list sigset) Z : (forall X, In X l -> wf_set X) -> join_list kone l = Ok Z ->
  forall k p g, records Z k p g <-> exists X, In X l /\ records X k p g.
Proof.
  intros HW H k p g. destruct (join_list_holds l Z HW H) as (_ & HH & _). split.
  - intros (s' & Hs & Hg). destruct (holds_run _ _ _ HH Hs) as (t & s & Hin & HR). apply in_set_runs in Hin as (X & HX & -> & Hs').
    exists X. split; [exact HX|]. exists s. split; [exact Hs'|]. apply HR, Hg.
  - intros (X & HX & s & Hs & Hg). destruct (holds_run_l _ _ (ss_tags X) s HH) as (s' & Hs' & HR); [apply in_set_runs; eauto|].
    exists s'. split; [exact Hs'|]. apply HR, Hg.
Qed.
Lemma same_keys_size (X Z : sigset) k n : same_keys (ss_tags X) (ss_tags Z) -> (tag_size X k n <-> tag_size Z k n).
Proof. intros H. exact (H k n). Qed.
End Inv.
