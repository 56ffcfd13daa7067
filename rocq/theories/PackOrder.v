(** Packing does not depend on the order of the rates. *)
From Coq Require Import QArith Qcanon Lqa.
From Verif Require Import Base BaseLemmas SliceLemmas Arith OrdLaws QcLemmas TagsModel SpecTags TagsProofs
  SyncModel SetModel SpecSet SetProofs SpecSelect TrackProofs SelectProofs OrderProofs JoinProofs JoinOk
  SpecTime ExtractProofs ExtractSet ExcludeProofs SpecConsec GroupProofs SpecMerge MergeProofs MergeRuns MergeOk ConsecProofs ConsecSet ConsecTime ConsecOk
  GlobModel InvModel SpecInv GlobProofs InvProofs PackProofs.
Open Scope nat_scope.

(** tag tables that designate channels in corresponding ways *)
Definition maps_to (t t' : tags) (c c' : nat) : Prop :=
  exists k l l' p, reads t k l /\ reads t' k l' /\ nth_error l p = Some c /\ nth_error l' p = Some c'.
Lemma maps_fun t t' c c1 c2 : aliases_kept t t' -> maps_to t t' c c1 -> maps_to t t' c c2 -> c1 = c2.
Proof.
  intros H (k & l & l' & p & H1 & H2 & H3 & H4) (k2 & m & m' & q & G1 & G2 & G3 & G4).
  pose proof (H k l p k2 m q c l' m' H1 G1 H3 G3 H2 G2) as E. congruence.
Qed.
Lemma maps_sym t t' c c' : maps_to t t' c c' -> maps_to t' t c' c.
Proof. intros (k & l & l' & p & H1 & H2 & H3 & H4). exists k, l', l, p. auto. Qed.
Lemma maps_total t t' : tags_valid t' -> same_keys t t' -> all_tagged t -> forall c, c < t_n t -> exists c', c' < t_n t' /\ maps_to t t' c c'.
Proof.
  intros V' Hk Ha c Hc. destruct (Ha c Hc) as (k & l & Hl & Hin). apply In_nth_error in Hin as [p Hp].
  destruct (proj1 (Hk k (length l)) (ex_intro _ l (conj Hl eq_refl))) as (l' & Hl' & E).
  destruct (nth_error l' p) as [c'|] eqn:Ec; [|apply nth_error_None in Ec; apply nth_error_Some_lt in Hp; lia].
  exists c'. split; [eapply tv_range; [exact V'|exact Hl'|eapply nth_error_In; eauto]|]. exists k, l, l', p. auto.
Qed.
Lemma choose_list {B C} (R : B -> C -> Prop) l : (forall x, In x l -> exists y, R x y) -> exists l', Forall2 R l l'.
Proof.
  induction l as [|x l IH]; intros H; [exists []; constructor|]. destruct (H x (or_introl eq_refl)) as [y Hy].
  destruct IH as [l' Hl]; [intros; apply H; right; assumption|]. exists (y :: l'). constructor; assumption.
Qed.
Lemma aliases_sym t t' : tags_valid t -> tags_valid t' -> same_keys t t' -> t_n t = t_n t' -> all_tagged t -> all_tagged t' ->
  aliases_kept t t' -> aliases_kept t' t.
Proof.
  intros V1 V2 Hk Hn A1 A2 H.
  destruct (choose_list (fun c c' => c' < t_n t' /\ maps_to t t' c c') (seq 0 (t_n t))) as [L HL].
  { intros c Hc. apply in_seq in Hc. apply maps_total; try assumption. lia. }
  assert (Len : length L = t_n t) by (apply Forall2_len in HL; rewrite seq_length in HL; congruence).
  assert (HLn : forall c c', nth_error L c = Some c' <-> c < t_n t /\ maps_to t t' c c').
  { intros c c'. split.
    - intros Hc. destruct (Forall2_nth_error_r _ _ _ _ _ HL Hc) as (x & Hx & _ & Hm).
      assert (Hlt : c < t_n t) by (rewrite <- Len; eapply nth_error_Some_lt; eauto).
      rewrite (nth_error_nth' _ 0) in Hx by (rewrite seq_length; exact Hlt). rewrite seq_nth in Hx by exact Hlt. injection Hx as <-. auto.
    - intros [Hc Hm]. destruct (nth_error L c) as [c2|] eqn:E; [|apply nth_error_None in E; lia].
      destruct (Forall2_nth_error_r _ _ _ _ _ HL E) as (x & Hx & _ & Hm2).
      rewrite (nth_error_nth' _ 0) in Hx by (rewrite seq_length; exact Hc). rewrite seq_nth in Hx by exact Hc. injection Hx as <-.
      f_equal. eapply maps_fun; eauto. }
  assert (ND : NoDup L).
  { apply (@NoDup_incl_NoDup nat (seq 0 (t_n t'))); [apply seq_NoDup|rewrite seq_length; lia|]. intros c' Hc'. apply in_seq in Hc'.
    destruct (maps_total t' t V1 (same_keys_sym _ _ Hk) A2 c' ltac:(lia)) as (c & Hc & Hm). apply (nth_error_In _ c).
    apply HLn. split; [exact Hc|apply maps_sym, Hm]. }
  intros k l p k2 l2 p2 c' m m2 H1 H2 H3 H4 H5 H6.
  assert (Lm : length m = length l).
  { destruct (proj1 (Hk k (length m)) (ex_intro _ m (conj H5 eq_refl))) as (l0 & Hl0 & E). apply (reads_dget _ _ _ V2) in Hl0, H1. congruence. }
  assert (Lm2 : length m2 = length l2).
  { destruct (proj1 (Hk k2 (length m2)) (ex_intro _ m2 (conj H6 eq_refl))) as (l0 & Hl0 & E). apply (reads_dget _ _ _ V2) in Hl0, H2. congruence. }
  destruct (nth_error m p) as [c1|] eqn:E1; [|apply nth_error_None in E1; apply nth_error_Some_lt in H3; lia].
  destruct (nth_error m2 p2) as [c2|] eqn:E2; [|apply nth_error_None in E2; apply nth_error_Some_lt in H4; lia].
  f_equal. assert (N1 : nth_error L c1 = Some c').
  { apply HLn. split; [eapply tv_range; [exact V1|exact H5|eapply nth_error_In; eauto]|]. exists k, m, l, p. auto. }
  assert (N2 : nth_error L c2 = Some c').
  { apply HLn. split; [eapply tv_range; [exact V1|exact H6|eapply nth_error_In; eauto]|]. exists k2, m2, l2, p2. auto. }
  eapply (proj1 (NoDup_nth_error L) ND); [eapply nth_error_Some_lt; eauto|congruence].
Qed.
Lemma aliases_trans t0 t t' : tags_valid t0 -> tags_valid t -> tags_valid t' -> same_keys t t0 -> aliases_kept t t0 -> aliases_kept t0 t' -> aliases_kept t t'.
Proof.
  intros V0 V V' Hk H H' k l p k2 l2 p2 c m m2 H1 H2 H3 H4 H5 H6.
  destruct (proj1 (Hk k (length l)) (ex_intro _ l (conj H1 eq_refl))) as (l0 & G1 & E1).
  destruct (proj1 (Hk k2 (length l2)) (ex_intro _ l2 (conj H2 eq_refl))) as (l02 & G2 & E2).
  destruct (nth_error l0 p) as [c0|] eqn:Ec; [|apply nth_error_None in Ec; apply nth_error_Some_lt in H3; lia].
  pose proof (H k l p k2 l2 p2 c l0 l02 H1 H2 H3 H4 G1 G2) as Eq. rewrite Ec in Eq. symmetry in Eq.
  exact (H' k l0 p k2 l02 p2 c0 m m2 G1 G2 Ec Eq H5 H6).
Qed.

Section Order.
Context {V K : Type} (kone : K).
Notation sync := (sync QA V K).
Notation sigset := (@sigset QA V K).
Notation seg := (@seg QA V K).

Lemma reorder_facts (X : sigset) t Y : wf_set X -> plain (ss_tags X) -> tags_valid t -> reorder kone X (TObj t) = Ok Y ->
  aliases_kept t (ss_tags X) /\ (forall s, In s (ss_signals Y) -> length (s_data s) = t_n (ss_tags X)).
Proof.
  intros HX Hp Hv H. pose proof (ws_tags X HX) as HvX. unfold reorder in H.
  destruct (tags_eqb (ss_tags X) t) eqn:Eeq.
  { injection H as <-. split; [|apply (ws_chan X HX)]. intros k l p k2 l2 p2 c m m2 H1 H2 H3 H4 H5 H6.
    apply (reads_dget _ _ _ Hv) in H1, H2. apply (reads_dget _ _ _ HvX) in H5, H6.
    rewrite (tags_eqb_dget _ _ HvX Hv Eeq) in H5, H6. congruence. }
  clear Eeq. set (self := t_dict (ss_tags X)) in *. set (new := arg_dict (TObj t)) in *.
  apply bind_ok in H as (u1 & Hkeys & H). apply bind_ok in H as (u2 & Hlen & H). apply bind_ok in H as (idxn & Hidxn & H).
  apply bind_ok in H as (u3 & Hinv & H). apply check_ok in Hinv. rewrite forallb_forall in Hinv.
  apply bind_ok in H as (signals & Hsig & H).
  assert (Hnew : forall k v, In (k, v) new -> exists l l0, v = RTuple l /\ dget k self = Some l0 /\ length l = length l0).
  { intros k v Hkv. destruct (mapM_In _ _ _ _ Hlen Hkv) as (? & _ & H1).
    destruct (mapM_In _ _ _ _ Hidxn Hkv) as (l & _ & H2). simpl in *.
    destruct v as [z|l1|l1]; try discriminate. injection H2 as <-. apply check_ok in H1.
    destruct (dget k self) as [l0|] eqn:E; [|discriminate]. apply Nat.eqb_eq in H1. eauto. }
  set (fself := fun kv : string * raw => match dget (fst kv) self with Some l => l | None => [] end) in *.
  set (fnew := fun kv : string * raw => entries (snd kv)) in *.
  assert (Eidx : idxn = map fnew new).
  { apply mapM_Forall2 in Hidxn. clear - Hidxn. induction Hidxn as [|[k v] l a b Hx Hl IH]; [reflexivity|].
    simpl. f_equal; [|exact IH]. simpl in Hx. destruct v; try discriminate. injection Hx as <-. reflexivity. }
  subst idxn. set (pairs := combine (concat (map fself new)) (concat (map fnew new))) in *.
  set (inv_set := fun ni : Z => dedup Nat.eqb (map fst (filter (fun p => Z.eqb (snd p) ni) pairs))) in *.
  assert (Hpair : forall c z, In (c, z) pairs -> inv_set z = [c]).
  { intros c z Hcz.
    assert (Hz : In z (concat (map fnew new))).
    { unfold pairs in Hcz. apply in_combine_r in Hcz. exact Hcz. }
    specialize (Hinv z Hz). apply Nat.eqb_eq in Hinv. change (length (inv_set z) = 1) in Hinv.
    assert (Hc : In c (inv_set z)).
    { unfold inv_set. apply (In_dedup _ nat_eqb_iff). apply in_map_iff. exists (c, z). split; [reflexivity|].
      apply filter_In. split; [exact Hcz|]. apply Z.eqb_refl. }
    destruct (inv_set z) as [|a [|b r]]; simpl in *; try lia. destruct Hc as [->|[]]. reflexivity. }
  assert (Hpos : forall k l l0 p c z, In (k, RTuple l) new -> dget k self = Some l0 ->
            nth_error l0 p = Some c -> nth_error l p = Some z -> inv_set z = [c]).
  { intros k l l0 p c z Hk Hl0 Hc Hz. apply Hpair.
    apply (combine_concat_In fself fnew new (k, RTuple l) p).
    - intros [k1 v1] H1. destruct (Hnew _ _ H1) as (l1 & l2 & -> & E & El). unfold fself, fnew. simpl. rewrite E. congruence.
    - exact Hk.
    - unfold fself. simpl. rewrite Hl0. exact Hc.
    - exact Hz. }
  assert (Hin : forall k l, reads t k l -> In (k, RTuple (map Z.of_nat l)) new).
  { intros k l Hl. unfold new. simpl. apply in_map_iff. exists (k, l). auto. }
  split.
  - intros k l p k2 l2 p2 c m m2 H1 H2 H3 H4 H5 H6. apply (reads_dget _ _ _ HvX) in H5, H6.
    assert (forall k l m p, reads t k l -> dget k self = Some m -> nth_error l p = Some c -> exists c0, nth_error m p = Some c0 /\ inv_set (Z.of_nat c) = [c0]) as G.
    { clear - Hpos Hin Hnew. intros k l m p H1 H5 H3. destruct (Hnew _ _ (Hin k l H1)) as (l1 & l0 & E & E0 & El). injection E as <-. rewrite map_length in El.
      assert (l0 = m) as -> by congruence. destruct (nth_error m p) as [c0|] eqn:Ec; [|apply nth_error_None in Ec; apply nth_error_Some_lt in H3; lia].
      exists c0. split; [reflexivity|]. apply (Hpos k (map Z.of_nat l) m p); auto. rewrite nth_error_map, H3. reflexivity. }
    destruct (G k l m p H1 H5 H3) as (c1 & E1 & F1). destruct (G k2 l2 m2 p2 H2 H6 H4) as (c2 & E2 & F2). congruence.
  - intros s Hs. apply set_of_syncs_inv in H as (_ & _ & Es & _). rewrite Es in Hs. apply (proj1 (sort_signals_In _ _)) in Hs.
    destruct (mapM_In_r _ _ _ _ Hsig Hs) as (s0 & Hs0 & E). apply bind_ok in E as (idx & E1 & E). apply bind_ok in E as (data & E2 & E).
    apply bind_ok in E as (cal & E3 & E). apply mapM_length in E1, E2. rewrite seq_length in E1.
    rewrite (nb_channels_wf X HX) in E1 by (apply plain_no; [exact Hp|simpl; auto 10]).
    apply sync_new_inv in E as (-> & _). congruence.
Qed.

Lemma join_list_inv (Z0 : sigset) rest J : wf_set Z0 -> join_list kone (Z0 :: rest) = Ok J ->
  exists Zs, Forall2 (fun Z Z' => reorder kone Z (TObj (ss_tags Z0)) = Ok Z') (Z0 :: rest) Zs /\
    set_of_syncs (TObj (ss_tags Z0)) (concat (map (@ss_signals QA V K) Zs)) = Ok J.
Proof.
  intros W H. unfold join_list, join, set_new in H. apply bind_ok in H as (sets & H1 & H2).
  change (ASet Z0 :: map ASet rest) with (map (@ASet QA V K) (Z0 :: rest)) in H1. rewrite mapM_map in H1. apply mapM_Forall2 in H1.
  assert (G : exists Zs, Forall2 (fun Z Z' => reorder kone Z (TObj (ss_tags Z0)) = Ok Z') (Z0 :: rest) Zs /\ sets = map (@ss_signals QA V K) Zs).
  { clear H2. induction H1 as [|Z s l sets HZ _ (Zs & I1 & ->)]; [exists []; split; [constructor|reflexivity]|].
    apply bind_ok in HZ as (Z' & E1 & E2). injection E2 as <-. exists (Z' :: Zs). split; [constructor; assumption|reflexivity]. }
  destruct G as (Zs & G1 & ->). exists Zs. auto.
Qed.
Lemma join_list_intro (Z0 : sigset) rest Zs :
  Forall2 (fun Z Z' => reorder kone Z (TObj (ss_tags Z0)) = Ok Z') (Z0 :: rest) Zs ->
  join_list kone (Z0 :: rest) = set_of_syncs (TObj (ss_tags Z0)) (concat (map (@ss_signals QA V K) Zs)).
Proof.
  intros H. unfold join_list, join, set_new. change (ASet Z0 :: map ASet rest) with (map (@ASet QA V K) (Z0 :: rest)). rewrite mapM_map.
  replace (mapM _ (Z0 :: rest)) with (Ok (map (@ss_signals QA V K) Zs)); [reflexivity|]. symmetry. apply mapM_Forall2.
  induction H as [|Z Z' l l' HZ _ IH]; simpl; constructor; [rewrite HZ; reflexivity|exact IH].
Qed.

(** a set that packing joins: good, with runs, every channel tagged *)
Record packed (Z : sigset) : Prop := { pk_good : good Z; pk_runs : ss_signals Z <> []; pk_tagged : all_tagged (ss_tags Z) }.

Lemma packed_pos (Z : sigset) : packed Z -> 0 < t_n (ss_tags Z).
Proof.
  intros [G R _]. destruct (ss_signals Z) as [|s l] eqn:E; [congruence|]. assert (Hs : In s (ss_signals Z)) by (rewrite E; left; reflexivity).
  rewrite <- (ws_chan Z (gd_wf Z G) s Hs). pose proof (so_chan _ (ws_sync Z (gd_wf Z G) s Hs)). destruct (s_data s); [congruence|simpl; lia].
Qed.

Lemma join_alike (l : list sigset) Z0 rest J : l = Z0 :: rest -> (forall Z, In Z l -> packed Z) -> join_list kone l = Ok J ->
  ss_tags J = ss_tags Z0 /\ forall Z, In Z l -> same_keys (ss_tags Z) (ss_tags Z0) /\ t_n (ss_tags Z) = t_n (ss_tags Z0) /\ aliases_kept (ss_tags Z0) (ss_tags Z).
Proof.
  intros El P H. assert (P0 : packed Z0) by (apply P; rewrite El; left; reflexivity). pose proof (pk_good _ P0) as G0.
  assert (HK : forall Z, In Z l -> same_keys (ss_tags Z) (ss_tags J)) by (apply (join_list_holds QA_ord kone l J (fun Z HZ => gd_wf Z (pk_good Z (P Z HZ))) H)).
  rewrite El in H. destruct (join_list_inv Z0 rest J (gd_wf Z0 G0) H) as (Zs & F & HS). rewrite <- El in F.
  apply set_of_syncs_inv in HS as (S1 & _ & S3 & _ & S5).
  assert (F' : forall Z, In Z l -> exists Z', In Z' Zs /\ reorder kone Z (TObj (ss_tags Z0)) = Ok Z') by (intros Z HZ; apply (Forall2_In_l' _ _ _ _ F HZ)).
  assert (Hrun : forall Z, In Z l -> exists s, In s (concat (map (@ss_signals QA V K) Zs)) /\ length (s_data s) = t_n (ss_tags Z)).
  { intros Z HZ. destruct (F' Z HZ) as (Z' & HZ' & E). pose proof (P Z HZ) as [GZ RZ _].
    destruct (reorder_facts Z (ss_tags Z0) Z' (gd_wf Z GZ) (gd_plain Z GZ) (ws_tags Z0 (gd_wf Z0 G0)) E) as [_ Hn].
    destruct (reorder_spec kone QA_ord Z (TObj (ss_tags Z0)) Z' (gd_wf Z GZ) (ws_tags Z0 (gd_wf Z0 G0)) E) as (HF & _).
    destruct (ss_signals Z') as [|s' l'] eqn:Es; [inversion HF; congruence|].
    assert (Hs' : In s' (ss_signals Z')) by (rewrite Es; left; reflexivity). rewrite <- Es in Hn. exists s'. split; [|apply Hn, Hs'].
    apply in_concat. exists (ss_signals Z'). split; [apply in_map, HZ'|exact Hs']. }
  assert (HJ : ss_tags J = ss_tags Z0).
  { destruct (Hrun Z0) as (s & Hs & Hl); [rewrite El; left; reflexivity|].
    destruct (set_tags_obj_ok (sort_signals (concat (map (@ss_signals QA V K) Zs))) (ss_tags Z0) (ws_tags Z0 (gd_wf Z0 G0)) (gd_plain Z0 G0)) as (t' & T1 & _ & T3).
    - right. destruct (sort_signals (concat (map (@ss_signals QA V K) Zs))) as [|s1 l1] eqn:Es.
      + apply (proj2 (sort_signals_In _ _)) in Hs. rewrite Es in Hs. destruct Hs.
      + exists s1. split; [reflexivity|]. split; [|apply packed_pos, P0]. rewrite <- Hl. apply S1; [|exact Hs]. apply sort_signals_In. rewrite Es. left; reflexivity.
    - rewrite S5 in T1. injection T1 as ->. apply T3. intros Es. apply (proj2 (sort_signals_In _ _)) in Hs. rewrite Es in Hs. destruct Hs. }
  split; [exact HJ|]. intros Z HZ. split; [|split].
  - rewrite <- HJ. apply HK, HZ.
  - destruct (Hrun Z HZ) as (s & Hs & <-). destruct (Hrun Z0) as (s0 & Hs0 & <-); [rewrite El; left; reflexivity|]. apply S1; assumption.
  - destruct (F' Z HZ) as (Z' & _ & E). pose proof (P Z HZ) as [GZ _ _].
    apply (reorder_facts Z (ss_tags Z0) Z' (gd_wf Z GZ) (gd_plain Z GZ) (ws_tags Z0 (gd_wf Z0 G0)) E).
Qed.

Definition same_shape (s s' : sync) : Prop := s_rate s' = s_rate s /\ s_start s' = s_start s /\ s_size s' = s_size s.
Lemma shape_last (s s' : sync) : same_shape s s' -> last_time s' = last_time s.
Proof. intros (E1 & E2 & E3). unfold last_time, sample_time. rewrite E1, E2, E3. reflexivity. Qed.
Lemma shape_distinct (l l' : list sync) : Forall2 same_shape l l' -> distinct_starts l -> distinct_starts l'.
Proof. intros F. apply (FOP_Forall2 _ _ _ _ _ F). intros x y x' y' (_ & -> & _) (_ & -> & _). auto. Qed.
Lemma shape_disjoint (l l' : list sync) : Forall2 same_shape l l' -> disjoint_runs l -> disjoint_runs l'.
Proof.
  intros F. apply (FOP_Forall2 _ _ _ _ _ F). intros x y x' y' Ex Ey. cbn beta. rewrite (shape_last x x' Ex), (shape_last y y' Ey).
  destruct Ex as (_ & -> & _), Ey as (_ & -> & _). auto.
Qed.
Lemma good_disjoint (X : sigset) : good X -> disjoint_runs (ss_signals X).
Proof.
  intros G. apply FOP_of_nth. intros i j s s' Hij Hi Hj. left.
  apply (apart_all QA_ord X (gd_wf X G)) with (i := i) (j := j); try assumption.
  intros s0 Hs0. destruct (gd_runs X G s0 Hs0). apply forward_run; [assumption|lia].
Qed.

Lemma Forall2_map_r' {B C D} (R : B -> C -> Prop) (f : D -> C) l l' : Forall2 R l (map f l') <-> Forall2 (fun x y => R x (f y)) l l'.
Proof.
  revert l'. induction l as [|x l IH]; intros [|y l']; simpl; split; intros H; inversion H; subst; constructor; try assumption; apply IH; assumption.
Qed.

(** the runs of the operands, whatever they have become, are shaped like the runs of the join *)
Lemma concat_shapes (l l' : list sigset) (J : sigset) Zs t : (forall Z, In Z l -> packed Z) -> join_list kone l = Ok J -> Permutation l l' -> tags_valid t ->
  Forall2 (fun Z Z' => reorder kone Z (TObj t) = Ok Z') l' Zs ->
  distinct_starts (concat (map (@ss_signals QA V K) Zs)) /\ disjoint_runs (concat (map (@ss_signals QA V K) Zs)) /\
  forall s, In s (concat (map (@ss_signals QA V K) Zs)) -> pos (s_rate s) /\ 2 <= s_size s.
Proof.
  intros P H HP Hv F. destruct (join_good kone l J (fun Z HZ => pk_good Z (P Z HZ)) H) as [GJ _].
  destruct (join_list_holds QA_ord kone l J (fun Z HZ => gd_wf Z (pk_good Z (P Z HZ))) H) as (_ & (runs & R1 & R2) & _).
  assert (W' : forall Z, In Z l' -> wf_set Z) by (intros Z HZ; apply (pk_good Z), P; eapply Permutation_in; [symmetry; exact HP|exact HZ]).
  assert (Q : Permutation runs (concat (map (@set_runs QA V K) l'))).
  { rewrite <- R1. clear - HP. induction HP as [|x l l' _ IH|x y l|l l1 l2 _ IH1 _ IH2]; simpl; [constructor|apply Permutation_app_head, IH| |etransitivity; eassumption].
    rewrite !app_assoc. apply Permutation_app_tail, Permutation_app_comm. }
  assert (S1 : Forall2 same_shape (map snd runs) (ss_signals J)).
  { clear - R2. induction R2 as [|[t s] s' runs sigs H _ IH]; simpl; constructor; [|exact IH]. destruct H as (H1 & H2 & H3 & _). split; [exact H1|]. split; [exact H2|exact H3]. }
  assert (S2 : Forall2 same_shape (map snd (concat (map (@set_runs QA V K) l'))) (concat (map (@ss_signals QA V K) Zs))).
  { clear - F W' Hv. induction F as [|Z Z' l' Zs HZ F IH]; [constructor|]. cbn [map concat]. rewrite map_app. apply Forall2_app; [|apply IH; intros; apply W'; right; assumption].
    destruct (reorder_spec kone QA_ord Z (TObj t) Z' (W' Z (or_introl eq_refl)) Hv HZ) as (HF & _). unfold set_runs. rewrite map_map. simpl. rewrite map_id.
    clear - HF. induction HF as [|s s' l l' (H1 & H2 & H3 & _) _ IH]; constructor; [|exact IH]. split; [exact H1|]. split; [exact H2|exact H3]. }
  assert (S1' : Forall2 same_shape (ss_signals J) (map snd runs)).
  { apply Forall2_flip in S1. revert S1. generalize (ss_signals J) (map snd runs). intros a b S. induction S as [|x y a b (H1 & H2 & H3) _ IH]; constructor; [|exact IH].
    split; [congruence|]. split; congruence. }
  assert (Q' : Permutation (map snd runs) (map snd (concat (map (@set_runs QA V K) l')))) by (apply Permutation_map, Q).
  split; [|split].
  - apply (shape_distinct _ _ S2). apply (distinct_perm _ _ Q'). apply (shape_distinct _ _ S1'). apply (good_distinct J GJ).
  - apply (shape_disjoint _ _ S2). apply (disjoint_perm _ _ Q'). apply (shape_disjoint _ _ S1'). apply (good_disjoint J GJ).
  - intros s Hs. destruct (Forall2_In_r' _ _ _ _ S2 Hs) as (s1 & Hs1 & E1 & _ & E2). rewrite E1, E2.
    apply (Permutation_in _ (Permutation_sym Q')) in Hs1. destruct (Forall2_In_r' _ _ _ _ S1' Hs1) as (s2 & Hs2 & E3 & _ & E4). rewrite E3, E4. apply (gd_runs J GJ), Hs2.
Qed.

Theorem join_list_perm (l l' : list sigset) J : (forall Z, In Z l -> packed Z) -> join_list kone l = Ok J -> Permutation l l' ->
  exists J', join_list kone l' = Ok J' /\ packed J' /\ same_content J J' /\ same_keys (ss_tags J) (ss_tags J').
Proof.
  intros P H HP. destruct l as [|Z0 rest]; [discriminate|].
  destruct (join_alike _ Z0 rest J eq_refl P H) as [TJ A].
  destruct l' as [|Z0' rest']; [apply Permutation_length in HP; discriminate|].
  set (l := Z0 :: rest) in *. set (l' := Z0' :: rest') in *.
  assert (P' : forall Z, In Z l' -> packed Z) by (intros Z HZ; apply P; eapply Permutation_in; [symmetry; exact HP|exact HZ]).
  assert (P0 : packed Z0) by (apply P; left; reflexivity). assert (P0' : packed Z0') by (apply P'; left; reflexivity).
  assert (In0' : In Z0' l) by (eapply Permutation_in; [symmetry; exact HP|left; reflexivity]).
  destruct (A Z0' In0') as (B1 & B2 & B3).
  pose proof (ws_tags Z0 (gd_wf Z0 (pk_good _ P0))) as V0. pose proof (ws_tags Z0' (gd_wf Z0' (pk_good _ P0'))) as V0'.
  assert (B4 : aliases_kept (ss_tags Z0') (ss_tags Z0)).
  { apply aliases_sym; try assumption; [apply same_keys_sym, B1|congruence|apply pk_tagged, P0|apply pk_tagged, P0']. }
  assert (R : forall Z, In Z l' -> exists Z', reorder kone Z (TObj (ss_tags Z0')) = Ok Z' /\ t_n (ss_tags Z') = t_n (ss_tags Z0')).
  { intros Z HZ. assert (HZl : In Z l) by (eapply Permutation_in; [symmetry; exact HP|exact HZ]). destruct (A Z HZl) as (C1 & C2 & C3).
    pose proof (P Z HZl) as [GZ RZ TZ]. apply (reorder_ok kone); [apply GZ|apply GZ|exact V0'|apply (pk_good _ P0')|exact RZ| |congruence|apply pk_tagged, P0'|].
    - eapply same_keys_trans; [exact C1|apply same_keys_sym, B1].
    - apply (aliases_trans (ss_tags Z0)); try assumption. apply (ws_tags Z), GZ. }
  destruct (choose_list _ l' R) as [Zs F2].
  assert (F : Forall2 (fun Z Z' => reorder kone Z (TObj (ss_tags Z0')) = Ok Z') l' Zs) by (clear - F2; induction F2 as [|? ? ? ? [? _]]; constructor; assumption).
  destruct (concat_shapes l l' J Zs (ss_tags Z0') P H HP V0' F) as (D1 & D2 & D3).
  set (runs := concat (map (@ss_signals QA V K) Zs)) in *.
  assert (Hchan : forall s, In s runs -> sync_ok s /\ length (s_data s) = t_n (ss_tags Z0')).
  { intros s Hs. apply in_concat in Hs as (sl & Hsl & Hs). apply in_map_iff in Hsl as (Z' & <- & HZ').
    destruct (Forall2_In_r' _ _ _ _ F2 HZ') as (Z & HZ & E & En). assert (WZ : wf_set Z) by apply (pk_good Z (P' Z HZ)).
    pose proof (reorder_wf kone QA_ord Z _ Z' WZ E) as W'. split; [apply (ws_sync Z' W'), Hs|]. rewrite (ws_chan Z' W' s Hs). exact En. }
  assert (Hne : exists s, In s runs).
  { destruct Zs as [|Z' Zs]; [inversion F|]. inversion F as [|? ? ? ? E _]; subst. 
    destruct (reorder_spec kone QA_ord Z0' (TObj (ss_tags Z0')) Z' (gd_wf _ (pk_good _ P0')) V0' E) as (HF & _).
    pose proof (pk_runs _ P0'). destruct (ss_signals Z0') as [|s0 q]; [congruence|]. inversion HF as [|? s' ? ? _ _]; subst. exists s'. unfold runs. simpl.
    match goal with H : _ :: _ = ss_signals Z' |- _ => rewrite <- H end. left; reflexivity. }
  assert (HJ' : exists t', set_tags (sort_signals runs) None (TObj (ss_tags Z0')) = Ok t' /\ t' = ss_tags Z0').
  { destruct (set_tags_obj_ok (sort_signals runs) (ss_tags Z0') V0' (gd_plain _ (pk_good _ P0'))) as (t' & T1 & _ & T3).
    - right. destruct (sort_signals runs) as [|s1 l1] eqn:Es; [destruct Hne as [s Hs]; apply (proj2 (sort_signals_In _ _)) in Hs; rewrite Es in Hs; destruct Hs|].
      exists s1. split; [reflexivity|]. split; [|apply packed_pos, P0']. apply Hchan. apply sort_signals_In. rewrite Es. left; reflexivity.
    - exists t'. split; [exact T1|]. apply T3. intros Es. destruct Hne as [s Hs]. apply (proj2 (sort_signals_In _ _)) in Hs. rewrite Es in Hs. destruct Hs. }
  destruct HJ' as (t' & Ht' & ->).
  assert (EJ : join_list kone l' = Ok (mkSet (sort_signals runs) (ss_tags Z0'))).
  { unfold l'. rewrite (join_list_intro Z0' rest' Zs F). fold runs. rewrite set_of_syncs_ok.
    - rewrite Ht'. reflexivity.
    - intros s s' Hs Hs'. destruct (Hchan s Hs) as [_ ->], (Hchan s' Hs') as [_ ->]. reflexivity.
    - intros s Hs. apply pos_eqb, D3, Hs.
    - apply (no_overlap_iff QA_ord); [|exact D1|exact D2]. intros s Hs. destruct (D3 s Hs). apply forward_run; [assumption|lia]. }
  eexists. split; [exact EJ|].
  destruct (join_good kone l' _ (fun Z HZ => pk_good Z (P' Z HZ)) EJ) as [GJ' _].
  destruct (join_list_holds QA_ord kone l' _ (fun Z HZ => gd_wf Z (pk_good Z (P' Z HZ))) EJ) as (WJ' & HH' & HK').
  destruct (join_list_holds QA_ord kone l J (fun Z HZ => gd_wf Z (pk_good Z (P Z HZ))) H) as (WJ & HH & HK).
  split; [|split].
  - split; [exact GJ'| |exact (pk_tagged _ P0')]. destruct Hne as [s Hs]. apply (proj2 (sort_signals_In _ _)) in Hs. cbn [ss_signals]. intros E. rewrite E in Hs. destruct Hs.
  - destruct (join_good kone l J (fun Z HZ => pk_good Z (P Z HZ)) H) as [GJ _].
    apply (holds_unique (concat (map (@set_runs QA V K) l))); [exact WJ|exact WJ'|apply (good_distinct J GJ)|exact HH|].
    destruct HH' as (r & R1 & R2). exists r. split; [|exact R2]. rewrite <- R1. clear - HP.
    induction HP as [|x a b _ IH|x y a|a a1 a2 _ IH1 _ IH2]; simpl; [constructor|apply Permutation_app_head, IH| |etransitivity; eassumption].
    rewrite !app_assoc. apply Permutation_app_tail, Permutation_app_comm.
  - apply same_keys_sym. eapply same_keys_trans; [apply same_keys_sym, (HK' Z0'); left; reflexivity|apply HK, In0'].
Qed.

(** ** every channel of a packed piece is tagged *)
Lemma keys_packed (X Y : sigset) keys idx : good X -> ss_signals X <> [] -> get_keys X keys = Ok idx ->
  select_channels kone X (SelSeq (map (fun i => CInt (Z.of_nat i)) idx)) = Ok Y -> packed Y.
Proof.
  intros G Hne Hk H. pose proof (gd_wf X G) as HX. pose proof (gd_plain X G) as Hp.
  pose proof (select_keys_reduced kone X Y keys idx HX Hp Hk H) as HR.
  pose proof (select_channels_wf kone QA_ord X _ Y HX H) as HY.
  pose proof (select_known kone X _ Y HX Hp H) as Hkn.
  destruct (select_channels_resolve kone X _ HX Hp Hkn) as (idx' & E & Hidx & Hr).
  rewrite E in H. apply select_indices_inv in H as [HF Hd]; [|exact HX].
  destruct (select_tracks kone X Y (sel_of idx') HF Hd (ws_tags X HX)) as [Hreads _].
  assert (HneY : ss_signals Y <> []) by (intros E0; rewrite E0 in HF; inversion HF; congruence).
  split; [exact (reduced_good _ X Y G HY HR)|exact HneY|].
  assert (Hn : t_n (ss_tags Y) = length (sel_of idx')).
  { destruct (ss_signals Y) as [|s' l] eqn:Es; [congruence|]. rewrite <- (ws_chan Y HY s') by (rewrite Es; left; reflexivity).
    inversion HF as [|s ? ? ? Hs _ E1 E2]. assert (Hok : sync_ok s) by (apply (ws_sync X HX); rewrite <- E1; left; reflexivity).
    destruct (s_select_run kone s _ s' Hok Hs) as (_ & _ & _ & F & _). symmetry. apply (Forall2_len _ _ _ F). }
  intros i Hi. rewrite Hn in Hi. destruct (nth_error (sel_of idx') i) as [c|] eqn:Ec; [|apply nth_error_None in Ec; lia].
  assert (Hc : In c (sel_of idx')) by (eapply nth_error_In; eauto).
  pose proof Hc as Hc2. apply sel_of_In, Hidx in Hc2. apply (sel_chosen X keys idx (ws_tags X HX) Hk) in Hc2 as (k & l & Hkk & Hl & Hcl).
  exists k, (map (fun j => index_of j (sel_of idx')) l). split.
  - apply Hreads. exists l. split; [exact Hl|]. split; [|reflexivity]. intros j Hj. apply sel_of_In, Hidx.
    apply (sel_chosen X keys idx (ws_tags X HX) Hk). eauto.
  - apply in_map_iff. exists c. split; [|exact Hcl]. pose proof (index_of_nth _ _ Hc) as N.
    eapply (proj1 (NoDup_nth_error (sel_of idx')) (sel_of_NoDup _)); [apply nth_error_Some_lt in N; exact N|congruence].
Qed.

Lemma join_packed (l : list sigset) J : (forall Z, In Z l -> packed Z) -> join_list kone l = Ok J -> packed J.
Proof.
  intros P H. destruct (join_list_perm l l J P H (Permutation_refl l)) as (J' & HJ' & PJ & _). rewrite H in HJ'. injection HJ' as <-. exact PJ.
Qed.

Lemma merge_tagged (seqs : list sigset) Y : (forall X, In X seqs -> packed X) -> seqs <> [] -> merge_all kone seqs = Ok Y -> ss_signals Y <> [] -> packed Y.
Proof.
  intros P Hne H HY. assert (G : forall X, In X seqs -> good X) by (intros X HX; apply P, HX).
  assert (W : forall X, In X seqs -> wf_set X) by (intros X HX; apply G, HX).
  destruct (merge_good kone seqs Y G Hne H) as [GY _]. split; [exact GY|exact HY|].
  assert (Hf : fine seqs) by (intros X HX; split; [apply W, HX|intros s Hs; apply (G X HX), Hs]).
  pose proof (merge_all_channels kone seqs Y Hf Hne H HY) as Hn.
  rewrite (nb_channels_wf Y (gd_wf Y GY)) in Hn by (apply plain_no; [apply GY|simpl; auto 10]).
  intros i Hi. rewrite Hn in Hi.
  assert (F : exists a X j, nth_error seqs a = Some X /\ j < nb_channels X /\ i = j + list_sum (map nb_channels (firstn a seqs))).
  { clear - Hi. revert i Hi. induction seqs as [|X seqs IH]; intros i Hi; simpl in Hi; [lia|]. destruct (Nat.lt_ge_cases i (nb_channels X)) as [Hlt|Hge].
    - exists 0, X, i. simpl. split; [reflexivity|]. split; [exact Hlt|lia].
    - destruct (IH (i - nb_channels X)) as (a & X' & j & H1 & H2 & H3); [lia|]. exists (S a), X', j. simpl. split; [exact H1|]. split; [exact H2|lia]. }
  destruct F as (a & X & j & Ha & Hj & ->). assert (HX : In X seqs) by (eapply nth_error_In; eauto).
  rewrite (nb_channels_wf X (W X HX)) in Hj by (apply plain_no; [apply (G X HX)|simpl; auto 10]).
  destruct (pk_tagged X (P X HX) j Hj) as (k & l & Hl & Hjl).
  exists k, (map (fun j => j + list_sum (map nb_channels (firstn a seqs))) l). split; [|apply in_map_iff; eauto].
  apply (merge_reads kone seqs Y W H). exists a, X, l. auto.
Qed.

Lemma join_merge_packed (inv : list sigset) Y : (forall X, In X inv -> good X /\ ss_signals X <> []) -> join_merge kone inv = Ok Y -> ss_signals Y <> [] -> packed Y.
Proof.
  intros G H HY. unfold join_merge in H. destruct inv as [|X0 inv0]; [destruct (set_nil_good kone Y H) as (_ & E1 & _); congruence|].
  set (inv := X0 :: inv0) in *. apply bind_ok in H as (content & Hc & H).
  assert (C : forall Z, In Z content -> packed Z).
  { intros Z HZ. destruct (mapM_In_r _ _ _ _ Hc HZ) as (ks & _ & E). apply bind_ok in E as (l & E1 & E2).
    apply (join_packed l Z); [|exact E2]. intros X HX. destruct (inv_channels_In kone inv l ks X E1 HX) as (X1 & idx & HX1 & F1 & F2).
    apply (keys_packed X1 X ks idx); try assumption; apply (G X1 HX1). }
  destruct content as [|a [|b c]]; [discriminate| |].
  - injection H as <-. apply C. left; reflexivity.
  - apply (merge_tagged (a :: b :: c) Y); [exact C|discriminate|exact H|exact HY].
Qed.

(** ** consecutive runs of two sets with the same content *)
Lemma content_shapes (X X' : sigset) : same_content X X' -> Forall2 same_shape (ss_signals X) (ss_signals X').
Proof. intros H. unfold same_content in H. induction H as [|s s' l l' (H1 & H2 & H3 & _) _ IH]; constructor; [split; [exact H1|split; [exact H2|exact H3]]|exact IH]. Qed.
Lemma shape_follows (r s r' s' : sync) : same_shape r r' -> same_shape s s' -> followsb r' s' = followsb r s.
Proof.
  intros Hr Hs. unfold followsb. rewrite ?(shape_last _ _ Hr), ?(shape_last _ _ Hs). destruct Hr as (E1 & E2 & E3), Hs as (F1 & F2 & F3).
  rewrite ?E1, ?E2, ?E3, ?F1, ?F2, ?F3. reflexivity.
Qed.
Lemma shape_conn (l l' : list sync) i : Forall2 same_shape l l' -> conn l' i = conn l i.
Proof.
  intros F. unfold conn. destruct (nth_error l i) as [r|] eqn:E1.
  - destruct (Forall2_nth_error _ _ _ _ _ F E1) as (r' & -> & Hr). destruct (nth_error l (S i)) as [s|] eqn:E2.
    + destruct (Forall2_nth_error _ _ _ _ _ F E2) as (s' & -> & Hs). apply shape_follows; assumption.
    + replace (nth_error l' (S i)) with (@None sync); [reflexivity|]. symmetry. apply nth_error_None. apply nth_error_None in E2. rewrite <- (Forall2_len _ _ _ F). exact E2.
  - replace (nth_error l' i) with (@None sync); [reflexivity|]. symmetry. apply nth_error_None. apply nth_error_None in E1. rewrite <- (Forall2_len _ _ _ F). exact E1.
Qed.

Lemma ranges_ext c c' n : (forall i, c i = c' i) -> forall a, ranges c a n = ranges c' a n.
Proof. intros E. induction n as [|n IH]; intros a; simpl; [reflexivity|]. rewrite IH, E. reflexivity. Qed.
Lemma shape_ranges (X X' : sigset) : Forall2 same_shape (ss_signals X) (ss_signals X') -> all_ranges X' = all_ranges X.
Proof.
  intros F. unfold all_ranges, nb_runs. rewrite <- (Forall2_len _ _ _ F). apply ranges_ext. intros i. apply shape_conn, F.
Qed.
Lemma Forall2_sub {B C} (R : B -> C -> Prop) l l' x y : Forall2 R l l' -> Forall2 R (sub l x y) (sub l' x y).
Proof.
  intros F. unfold sub.
  assert (F1 : Forall2 R (skipn x l) (skipn x l')) by (clear y; revert x; induction F as [|a b l l' H F IH]; intros [|x]; simpl; try constructor; auto).
  revert F1. generalize (skipn x l) (skipn x l') (y - x). clear. intros l l' n F. revert n. induction F as [|a b l l' H F IH]; intros [|n]; simpl; constructor; auto.
Qed.
Lemma shape_sum (b b' : list sync) : Forall2 same_shape b b' -> list_sum (map s_size b') = list_sum (map s_size b).
Proof. induction 1 as [|s s' b b' (_ & _ & E) _ IH]; [reflexivity|]. simpl. congruence. Qed.

Lemma fits_shape (X X' : sigset) p m m' : Forall2 same_shape (ss_signals X) (ss_signals X') -> fits X p m -> fits X' p m' -> same_shape m m'.
Proof.
  intros F [_ (r0 & b0 & Eb & E1 & _ & E2 & _ & E3 & _)] [_ (r1 & b1 & Eb' & G1 & _ & G2 & _ & G3 & _)].
  pose proof (Forall2_sub same_shape _ _ (fst p) (snd p) F) as FS. pose proof (shape_sum _ _ FS) as Sum.
  rewrite Eb, Eb' in FS. inversion FS as [|? ? ? ? (H1 & H2 & H3) _]; subst.
  split; [|split; congruence]. rewrite (G2 r1) by (rewrite Eb'; left; reflexivity). rewrite (E2 r0) by (rewrite Eb; left; reflexivity). exact H1.
Qed.

Lemma room_shape (X X' Y : sigset) : good X -> merge_consecutive_runs kone X = Ok Y -> Forall2 same_shape (ss_signals X) (ss_signals X') -> room X'.
Proof.
  intros G H FS L ms Hnd Hin F. pose proof (gd_wf X G) as W.
  destruct (mcr_result kone X Y W (good_distinct X G) H) as [FY _].
  assert (GY : good Y) by exact (mcr_good kone X Y G H).
  assert (HY : forall s, In s (ss_signals Y) -> forward s).
  { intros s Hs. destruct (gd_runs Y GY s Hs). apply forward_run; [assumption|lia]. }
  apply FOP_of_nth. intros i j m m' Hij Hi Hj.
  destruct (Forall2_nth_error_r _ _ _ _ _ F Hi) as (p & Lp & Fp). destruct (Forall2_nth_error_r _ _ _ _ _ F Hj) as (q & Lq & Fq).
  assert (Hpq : p <> q).
  { intros <-. assert (i = j); [|lia]. eapply NoDup_nth_error; [exact Hnd|eapply nth_error_Some_lt; eauto|congruence]. }
  rewrite (shape_ranges X X' FS) in Hin.
  assert (T : forall m p, In p (all_ranges X) -> fits X' p m -> exists a s, nth_error (all_ranges X) a = Some p /\ nth_error (ss_signals Y) a = Some s /\ same_shape s m).
  { clear - FY FS. intros m p Hp Hf. apply In_nth_error in Hp as [a Ha]. destruct (Forall2_nth_error _ _ _ _ _ FY Ha) as (s & Hs & Hfs).
    exists a, s. split; [exact Ha|]. split; [exact Hs|]. exact (fits_shape X X' p s m FS Hfs Hf). }
  destruct (T m p (Hin p (nth_error_In _ _ Lp)) Fp) as (a & s & A1 & A2 & A3).
  destruct (T m' q (Hin q (nth_error_In _ _ Lq)) Fq) as (a' & s' & B1 & B2 & B3).
  rewrite (shape_last _ _ A3), (shape_last _ _ B3). destruct A3 as (_ & -> & _), B3 as (_ & -> & _). destruct (Nat.lt_total a a') as [La|[La|La]].
  - left. exact (apart_all QA_ord Y (gd_wf Y GY) HY a a' s s' La A2 B2).
  - exfalso. apply Hpq. congruence.
  - right. exact (apart_all QA_ord Y (gd_wf Y GY) HY a' a s' s La B2 A2).
Qed.

Lemma seg_half (X X' : sigset) p (m m' : sync) : wf_set X -> wf_set X' -> same_keys (ss_tags X) (ss_tags X') -> same_content X X' ->
  fits X p m -> fits X' p m' -> forall k q g, reads_seg (ss_tags X) m k q g -> reads_seg (ss_tags X') m' k q g.
Proof.
  intros W W' Hk HC Fm Fm' k q g (l & c & Hl & Hq & Hg).
  pose proof (fits_shape X X' p m m' (content_shapes X X' HC) Fm Fm') as (S1 & S2 & S3).
  destruct (proj1 (Hk k (length l)) (ex_intro _ l (conj Hl eq_refl))) as (l' & Hl' & El).
  destruct (nth_error l' q) as [c'|] eqn:Ec; [|apply nth_error_None in Ec; apply nth_error_Some_lt in Hq; lia].
  exists l', c'. split; [exact Hl'|]. split; [exact Ec|]. destruct Hg as (Gv & Gc & Gr & Gs).
  destruct Fm as [_ (r0 & b0 & Eb & E1 & E1c & E2 & E2l & E3 & E4)]. destruct Fm' as [_ (r1 & b1 & Eb' & G1 & G1c & G2 & G2l & G3 & G4)].
  pose proof (Forall2_sub _ _ _ (fst p) (snd p) HC) as FS.
  assert (Run : forall r r', In r (sub (ss_signals X) (fst p) (snd p)) -> same_run (ss_tags X) r (ss_tags X') r' ->
            nth_error (s_data r') c' = nth_error (s_data r) c /\ nth_error (s_cal r') c' = nth_error (s_cal r) c).
  { intros r r' Hr HR. assert (Hin : In r (ss_signals X)) by (eapply sub_In; eauto).
    destruct (is_seg_exists r c) as [g0 Hg0]; [apply (ws_sync X W), Hin|rewrite (ws_chan X W r Hin); eapply (tv_range _ (ws_tags X W)); [exact Hl|eapply nth_error_In; eauto]|].
    assert (Rs : reads_seg (ss_tags X) r k q g0) by (exists l, c; auto). apply HR in Rs as (l1 & c1 & Hl1 & Hc1 & Hg1).
    apply (reads_dget _ _ _ (ws_tags X' W')) in Hl1, Hl'. rewrite Hl' in Hl1. injection Hl1 as <-. rewrite Ec in Hc1. injection Hc1 as <-.
    destruct Hg0 as (V1 & V2 & _), Hg1 as (U1 & U2 & _). rewrite V1, V2, U1, U2. auto. }
  rewrite Eb, Eb' in FS. inversion FS as [|? ? ? ? FS0 _ Q1 Q2]. 
  destruct (Run r0 r1) as [R1 R2]; [rewrite Eb; left; reflexivity|exact FS0|].
  split; [|split; [rewrite G1c, R2, <- E1c; exact Gc|split; congruence]].
  destruct (E4 c _ Gv) as (ds & Fd & Ed). rewrite Ed.
  assert (Hlt : c' < length (s_data m')).
  { rewrite G2l. apply nth_error_Some. rewrite R1. rewrite Eb in Fd. inversion Fd as [|? ? ? ? N]; subst. rewrite N. discriminate. }
  destruct (nth_error (s_data m') c') as [d'|] eqn:Ed'; [|apply nth_error_None in Ed'; lia]. destruct (G4 c' d' Ed') as (ds' & Fd' & ->).
  f_equal. f_equal. rewrite <- Eb, <- Eb' in FS. clear - FS Fd Fd' Run. revert Run ds ds' Fd Fd'.
  induction FS as [|r r' b b' HR FS IH]; intros Run ds ds' Fd Fd'; inversion Fd; inversion Fd'; subst; [reflexivity|].
  f_equal; [|apply IH; [intros x x' Hx; apply Run; right; exact Hx|assumption|assumption]].
  destruct (Run r r' (or_introl eq_refl) HR) as [R _]. congruence.
Qed.
Lemma content_sym (X X' : sigset) : same_content X X' -> same_content X' X.
Proof. intros H. unfold same_content in *. apply Forall2_flip in H. induction H; constructor; [apply same_run_sym; assumption|assumption]. Qed.

Lemma all_top t : all_tagged t -> top_tagged t.
Proof.
  intros H. unfold top_tagged. destruct (t_n t) as [|n] eqn:E; [left; reflexivity|right]. destruct (H n) as (k & l & Hl & Hn); [lia|].
  exists k, l. replace (S n - 1) with n by lia. auto.
Qed.

Theorem mcr_content (X X' Y : sigset) : good X -> packed X' -> same_keys (ss_tags X) (ss_tags X') -> same_content X X' ->
  merge_consecutive_runs kone X = Ok Y -> exists Y', merge_consecutive_runs kone X' = Ok Y' /\ same_reading Y Y'.
Proof.
  intros G P Hk HC H. pose proof (pk_good X' P) as G'. pose proof (content_shapes X X' HC) as FS.
  assert (R : roomy X').
  { split; [apply G'|apply G'|intros s Hs; apply (gd_runs X' G' s Hs)| |apply good_distinct, G'|exact (room_shape X X' Y G H FS)].
    intros s Hs. destruct (gd_runs X' G' s Hs). lia. }
  destruct (mcr_ok_room kone X' R) as (Y' & HY' & _); [right; left; apply all_top, P|]. exists Y'. split; [exact HY'|].
  destruct (mcr_result kone X Y (gd_wf X G) (good_distinct X G) H) as [F D]. destruct (mcr_result kone X' Y' (gd_wf X' G') (good_distinct X' G') HY') as [F' D'].
  rewrite (shape_ranges X X' FS) in F'.
  assert (T : same_keys (ss_tags Y) (ss_tags Y')) by (intros k n; unfold reads; rewrite D, D'; apply (Hk k n)).
  apply same_content_tracks; [apply (mcr_good kone X Y G H)|apply (mcr_good kone X' Y' G' HY')|exact T|].
  unfold same_content. revert F F'. generalize (ss_signals Y) (ss_signals Y') (all_ranges X). intros a b rs F. revert b.
  induction F as [|p m rs a Hm F IH]; intros b F'; inversion F' as [|? m' ? ? Hm' F'']; subst; constructor; [|apply IH; assumption].
  destruct (fits_shape X X' p m m' FS Hm Hm') as (S1 & S2 & S3). split; [exact S1|]. split; [exact S2|]. split; [exact S3|].
  assert (T1 : forall k q g, reads_seg (ss_tags Y) m k q g <-> reads_seg (ss_tags X) m k q g) by (intros k q g; unfold reads_seg, reads; rewrite D; reflexivity).
  assert (T2 : forall k q g, reads_seg (ss_tags Y') m' k q g <-> reads_seg (ss_tags X') m' k q g) by (intros k q g; unfold reads_seg, reads; rewrite D'; reflexivity).
  intros k q g. rewrite T1, T2. split; intros Hg.
  - exact (seg_half X X' p m m' (gd_wf X G) (gd_wf X' G') Hk HC Hm Hm' k q g Hg).
  - exact (seg_half X' X p m' m (gd_wf X' G') (gd_wf X G) (same_keys_sym _ _ Hk) (content_sym X X' HC) Hm' Hm k q g Hg).
Qed.

(** ** the whole *)
Lemma mapM_perm {B C} (f : B -> res C) l l' : Permutation l l' -> forall r, mapM f l = Ok r -> exists r', mapM f l' = Ok r' /\ Permutation r r'.
Proof.
  intros P. induction P as [|x l l' _ IH|x y l|l l1 l2 _ IH1 _ IH2]; intros r H.
  - injection H as <-. exists []. split; [reflexivity|constructor].
  - cbn [mapM] in *. apply bind_ok in H as (z & H1 & H). apply bind_ok in H as (zs & H2 & H). injection H as <-.
    destruct (IH zs H2) as (r' & E & Q). exists (z :: r'). rewrite H1, E. split; [reflexivity|constructor; exact Q].
  - cbn [mapM] in *. apply bind_ok in H as (z & H1 & H). apply bind_ok in H as (zs & H2 & H). injection H as <-.
    apply bind_ok in H2 as (w & H2 & H3). apply bind_ok in H3 as (ws & H3 & E). injection E as <-.
    exists (w :: z :: ws). rewrite H2, H1. cbn [bind]. rewrite H3. split; [reflexivity|constructor].
  - destruct (IH1 r H) as (r1 & H1 & P1). destruct (IH2 r1 H1) as (r2 & H2 & P2). exists r2. split; [exact H2|etransitivity; eassumption].
Qed.
Lemma filter_perm {B} (f : B -> bool) l l' : Permutation l l' -> Permutation (filter f l) (filter f l').
Proof.
  induction 1 as [|x l l' _ IH|x y l|l l1 l2 _ IH1 _ IH2]; simpl; [constructor| | |etransitivity; eassumption].
  - destruct (f x); [constructor|]; exact IH.
  - destruct (f x), (f y); try reflexivity. apply perm_swap.
Qed.

Theorem pack_order (inv : list sigset) order order' Y : (forall X, In X inv -> good X) -> Permutation order order' ->
  pack_multi kone order inv = Ok Y -> exists Y', pack_multi kone order' inv = Ok Y' /\ same_reading Y Y'.
Proof.
  intros G P H. unfold pack_multi in *. apply bind_ok in H as (sigs & H1 & H2).
  destruct (mapM_perm _ _ _ P sigs H1) as (sigs' & H1' & Q). rewrite H1'. cbn [bind].
  apply (filter_perm (fun s : sigset => negb (nb_runs s =? 0) && subsetb String.eqb (inv_tags inv) (dkeys (t_dict (ss_tags s))))) in Q.
  set (sel := filter _ sigs) in *. set (sel' := filter _ sigs') in *.
  assert (PS : forall Z, In Z sel -> packed Z).
  { intros Z HZ. apply filter_In in HZ as [HZ E]. apply andb_true_iff in E as [E _]. apply has_runs_b in E.
    destruct (mapM_In_r _ _ _ _ H1 HZ) as (f0 & _ & E2). apply bind_ok in E2 as (i & E2 & E3).
    apply (join_merge_packed i Z); [|exact E3|exact E]. intros X HX. destruct (inv_rate kone inv i f0 G E2 X HX) as (R1 & R2 & _). auto. }
  destruct sel as [|Z0 sel0] eqn:Es.
  - apply Permutation_nil in Q. rewrite Q. exists Y. split; [exact H2|]. split; intros; reflexivity.
  - rewrite <- Es in *. apply bind_ok in H2 as (J & HJ & HY). destruct sel' as [|Z0' sel0'] eqn:Es'; [apply Permutation_sym, Permutation_nil in Q; congruence|]. rewrite <- Es' in *.
    destruct (join_list_perm sel sel' J PS HJ Q) as (J' & HJ' & PJ' & C & Kk). rewrite HJ'. cbn [bind].
    exact (mcr_content J J' Y (pk_good J (join_packed sel J PS HJ)) PJ' Kk C HY).
Qed.

Lemma pack_any_order (inv : list sigset) keep torder order order' Y : (forall X, In X inv -> good X) -> Permutation order order' ->
  pack kone keep torder order inv = Ok Y -> exists Y', pack kone keep torder order' inv = Ok Y' /\ same_reading Y Y'.
Proof.
  intros G P H. destruct keep; [exact (pack_order inv order order' Y G P H)|]. unfold pack in *. apply bind_ok in H as (i & Hi & H). rewrite Hi. cbn [bind].
  apply (pack_order i order order' Y); [intros Z HZ; apply (split_good kone inv i torder G Hi Z HZ)|exact P|exact H].
Qed.
End Order.
