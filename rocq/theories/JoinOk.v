(** When join succeeds. *)
From Verif Require Import Base BaseLemmas SliceLemmas Arith OrdLaws TagsModel SpecTags TagsProofs
  SyncModel SetModel SpecSet SetProofs SpecSelect TrackProofs SelectProofs OrderProofs JoinProofs.

Section JoinOk.
Context {A : Arith} {V K : Type} (kone : K) (L : OrdLaws A).
Notation sync := (sync A V K).
Notation sigset := (@sigset A V K).

Lemma same_times_interval (l l' : list sync) :
  Forall2 (fun s s' => s_rate s' = s_rate s /\ s_start s' = s_start s /\ s_size s' = s_size s) l l' ->
  map (fun s => (s_start s, last_time s)) l' = map (fun s => (s_start s, last_time s)) l.
Proof.
  induction 1 as [|s s' l l' (Er & Es & Ez) HF IH]; [reflexivity|]. simpl.
  unfold last_time, sample_time. rewrite Er, Es, Ez. f_equal. exact IH.
Qed.

Lemma combine_concat_inv {B C D} (f : B -> list C) (g : B -> list D) l c z :
  (forall x, In x l -> length (f x) = length (g x)) ->
  In (c, z) (combine (concat (map f l)) (concat (map g l))) ->
  exists x p, In x l /\ nth_error (f x) p = Some c /\ nth_error (g x) p = Some z.
Proof.
  intros Hl. induction l as [|y l IH]; simpl; [tauto|].
  rewrite combine_app_eq by (apply Hl; left; reflexivity). rewrite in_app_iff. intros [H|H].
  - apply In_nth_error in H as [p Hp]. exists y, p. split; [left; reflexivity|].
    clear - Hp. revert Hp. generalize (f y), (g y). intros a b. revert p b.
    induction a as [|u a IH]; intros [|p] [|v b] H; simpl in *; try discriminate.
    + injection H as -> ->; auto.
    + apply IH; exact H.
  - destruct IH as (x & p & Hx & H1 & H2); [intros; apply Hl; right; assumption|exact H|].
    exists x, p. auto.
Qed.

(** reorder, once the tags are known to be compatible: [inv] gives the old
    channel of every tagged new channel *)
Lemma reorder_reduce (Y : sigset) t : tags_valid (ss_tags Y) -> tags_valid t ->
  tags_eqb (ss_tags Y) t = false -> same_keys (ss_tags Y) t -> aliases_kept t (ss_tags Y) ->
  exists inv : nat -> res nat,
    (forall k l p c, reads t k l -> nth_error l p = Some c -> exists l0 c0,
       reads (ss_tags Y) k l0 /\ nth_error l0 p = Some c0 /\ inv c = Ok c0) /\
    (forall c, (forall k l, reads t k l -> ~ In c l) -> inv c = Err KeyError) /\
    reorder kone Y (TObj t) =
      (signals <- mapM (fun s => idx <- mapM inv (seq 0 (nb_channels Y)) ;; s_select kone s idx) (ss_signals Y) ;;
       set_of_syncs (TObj t) signals).
Proof.
  intros HvY Hv Heq Hk Hal. unfold reorder. rewrite Heq. cbv zeta.
  set (new := arg_dict (TObj t)). set (self := t_dict (ss_tags Y)).
  assert (Hnew : forall k v, In (k, v) new <-> exists l, reads t k l /\ v = RTuple (map Z.of_nat l)).
  { intros k v. unfold new. simpl. rewrite in_map_iff. split.
    - intros ([k1 l1] & E & H). injection E as <- <-. eauto.
    - intros (l & H & ->). exists (k, l). auto. }
  assert (Hself : forall k l, reads t k l -> exists l0, dget k self = Some l0 /\ length l0 = length l).
  { intros k l Hl. destruct (proj2 (Hk k (length l)) (ex_intro _ l (conj Hl eq_refl))) as (l0 & Hl0 & E).
    exists l0. split; [apply reads_dget; assumption|exact E]. }
  assert (Ekeys : seteqb String.eqb (dkeys new) (dkeys self) = true).
  { apply (seteqb_iff _ string_eqb_iff). intros k. unfold new. rewrite dkeys_obj. unfold dkeys. rewrite !in_map_iff.
    split; intros ([k1 l1] & E & H); simpl in E; subst k1.
    - destruct (Hself k l1 H) as (l0 & Hl0 & _). exists (k, l0). split; [reflexivity|]. apply dget_In. exact Hl0.
    - destruct (proj1 (Hk k (length l1)) (ex_intro _ l1 (conj H eq_refl))) as (l0 & Hl0 & E). exists (k, l0). auto. }
  rewrite Ekeys. simpl bind at 1.
  match goal with |- context [bind (mapM ?f new) _] => set (F := f) end.
  assert (HF : mapM F new = Ok (map (fun _ => tt) new)).
  { apply mapM_ok_all. intros [k v] Hkv. apply Hnew in Hkv as (l & Hl & ->). destruct (Hself k l Hl) as (l0 & E0 & El).
    unfold F. simpl. fold self. rewrite E0, map_length, El, Nat.eqb_refl. reflexivity. }
  rewrite HF. simpl bind at 1.
  rewrite (mapM_ok_all _ (fun kv => entries (snd kv))).
  2:{ intros [k v] Hkv. apply Hnew in Hkv as (l & Hl & ->). reflexivity. }
  simpl bind at 1.
  set (fself := fun kv : string * raw => match dget (fst kv) self with Some l => l | None => [] end).
  set (fnew := fun kv : string * raw => entries (snd kv)).
  set (pairs := combine (concat (map fself new)) (concat (map fnew new))).
  set (inv_set := fun ni : Z => dedup Nat.eqb (map fst (filter (fun p => Z.eqb (snd p) ni) pairs))).
  assert (Hlenf : forall x, In x new -> length (fself x) = length (fnew x)).
  { intros [k v] Hkv. apply Hnew in Hkv as (l & Hl & ->). destruct (Hself k l Hl) as (l0 & E0 & El).
    unfold fself, fnew. simpl. rewrite E0, map_length. exact El. }
  (* each new channel comes from exactly one old channel *)
  assert (Hsrc : forall k l p c, reads t k l -> nth_error l p = Some c ->
            exists l0 c0, dget k self = Some l0 /\ nth_error l0 p = Some c0 /\ inv_set (Z.of_nat c) = [c0]).
  { intros k l p c Hl Hc. destruct (Hself k l Hl) as (l0 & E0 & El).
    destruct (nth_error l0 p) as [c0|] eqn:Hc0; [|apply nth_error_None in Hc0; apply nth_error_Some_lt in Hc; lia].
    exists l0, c0. split; [exact E0|]. split; [exact Hc0|].
    assert (Hin : In (c0, Z.of_nat c) pairs).
    { apply (combine_concat_In fself fnew new (k, RTuple (map Z.of_nat l)) p); [exact Hlenf|apply Hnew; eauto| |].
      - unfold fself. simpl. rewrite E0. exact Hc0.
      - unfold fnew. simpl. rewrite nth_error_map, Hc. reflexivity. }
    apply (dedup_all_eq _ nat_eqb_iff). split.
    - intros E. assert (Hx : In c0 (map fst (filter (fun p => Z.eqb (snd p) (Z.of_nat c)) pairs))).
      { apply in_map_iff. exists (c0, Z.of_nat c). split; [reflexivity|]. apply filter_In. split; [exact Hin|apply Z.eqb_refl]. }
      rewrite E in Hx. destruct Hx.
    - intros y Hy. apply in_map_iff in Hy as ([y' z] & E & Hy). simpl in E. subst y'. apply filter_In in Hy as [Hy Ez].
      simpl in Ez. apply Z.eqb_eq in Ez. subst z.
      apply combine_concat_inv in Hy as ([k2 v2] & p2 & Hx2 & H1 & H2); [|exact Hlenf].
      apply Hnew in Hx2 as (l2 & Hl2 & ->). unfold fnew in H2. simpl in H2.
      apply nth_error_map_some in H2 as (c2 & Hc2 & E2). apply Nat2Z.inj in E2. subst c2.
      destruct (Hself k2 l2 Hl2) as (m2 & Em2 & _). unfold fself in H1. simpl in H1. rewrite Em2 in H1.
      assert (G : nth_error l0 p = nth_error m2 p2).
      { eapply (Hal k l p k2 l2 p2 c); try eassumption; apply reads_dget; assumption. }
      congruence. }
  assert (Einv : forallb (fun ni => length (inv_set ni) =? 1) (concat (map fnew new)) = true).
  { apply forallb_forall. intros z Hz. apply in_concat in Hz as (x & Hx & Hz).
    apply in_map_iff in Hx as ([k v] & <- & Hkv). apply Hnew in Hkv as (l & Hl & ->).
    unfold fnew in Hz. simpl in Hz. apply in_map_iff in Hz as (c & <- & Hc). apply In_nth_error in Hc as [p Hc].
    destruct (Hsrc k l p c Hl Hc) as (? & ? & _ & _ & ->). reflexivity. }
  match goal with |- context [check (forallb ?f ?l) AssertionError] =>
    change (forallb f l) with (forallb (fun ni => length (inv_set ni) =? 1) (concat (map fnew new))) end.
  rewrite Einv. simpl bind at 1.
  exists (fun i : nat => match inv_set (Z.of_nat i) with [si] => Ok si | _ => Err KeyError end).
  split; [|split; [|reflexivity]].
  - intros k l p c Hl Hc. destruct (Hsrc k l p c Hl Hc) as (l0 & c0 & E0 & E1 & ->). exists l0, c0.
    split; [apply dget_In; exact E0|auto].
  - intros c Hc.
    assert (E : inv_set (Z.of_nat c) = []); [|rewrite E; reflexivity].
    unfold inv_set. assert (E : filter (fun p => Z.eqb (snd p) (Z.of_nat c)) pairs = []); [|rewrite E; reflexivity].
    destruct (filter _ pairs) as [|[y z] fl] eqn:E; [reflexivity|exfalso].
    assert (Hin : In (y, z) (filter (fun p => Z.eqb (snd p) (Z.of_nat c)) pairs)) by (rewrite E; left; reflexivity).
    apply filter_In in Hin as [Hin Ez]. simpl in Ez. apply Z.eqb_eq in Ez. subst z.
    apply combine_concat_inv in Hin as ([k2 v2] & p2 & Hx2 & H1 & H2); [|exact Hlenf].
    apply Hnew in Hx2 as (l2 & Hl2 & ->). unfold fnew in H2. simpl in H2.
    apply nth_error_map_some in H2 as (c2 & Hc2 & E2). apply Nat2Z.inj in E2. subst c2.
    apply (Hc k2 l2 Hl2). eapply nth_error_In; eauto.
Qed.

Lemma reorder_ok (Y : sigset) t : wf_set Y -> plain (ss_tags Y) -> tags_valid t -> plain t ->
  ss_signals Y <> [] -> same_keys (ss_tags Y) t -> t_n t = t_n (ss_tags Y) -> all_tagged t ->
  aliases_kept t (ss_tags Y) -> exists Y', reorder kone Y (TObj t) = Ok Y' /\ t_n (ss_tags Y') = t_n t.
Proof.
  intros HY HpY Hv Hp Hne Hk Hn Hall Hal. pose proof (ws_tags Y HY) as HvY. unfold reorder.
  destruct (tags_eqb (ss_tags Y) t); [eauto|]. cbv zeta.
  set (new := arg_dict (TObj t)). set (self := t_dict (ss_tags Y)).
  assert (Hnew : forall k v, In (k, v) new <-> exists l, reads t k l /\ v = RTuple (map Z.of_nat l)).
  { intros k v. unfold new. simpl. rewrite in_map_iff. split.
    - intros ([k1 l1] & E & H). injection E as <- <-. eauto.
    - intros (l & H & ->). exists (k, l). auto. }
  assert (Hself : forall k l, reads t k l -> exists l0, dget k self = Some l0 /\ length l0 = length l).
  { intros k l Hl. destruct (proj2 (Hk k (length l)) (ex_intro _ l (conj Hl eq_refl))) as (l0 & Hl0 & E).
    exists l0. split; [apply reads_dget; assumption|exact E]. }
  assert (Ekeys : seteqb String.eqb (dkeys new) (dkeys self) = true).
  { apply (seteqb_iff _ string_eqb_iff). intros k. unfold new. rewrite dkeys_obj. unfold dkeys. rewrite !in_map_iff.
    split; intros ([k1 l1] & E & H); simpl in E; subst k1.
    - destruct (Hself k l1 H) as (l0 & Hl0 & _). exists (k, l0). split; [reflexivity|]. apply dget_In. exact Hl0.
    - destruct (proj1 (Hk k (length l1)) (ex_intro _ l1 (conj H eq_refl))) as (l0 & Hl0 & E). exists (k, l0). auto. }
  rewrite Ekeys. simpl bind at 1.
  match goal with |- context [bind (mapM ?f new) _] => set (F := f) end.
  assert (HF : mapM F new = Ok (map (fun _ => tt) new)).
  { apply mapM_ok_all. intros [k v] Hkv. apply Hnew in Hkv as (l & Hl & ->). destruct (Hself k l Hl) as (l0 & E0 & El).
    unfold F. simpl. fold self. rewrite E0, map_length, El, Nat.eqb_refl. reflexivity. }
  rewrite HF. simpl bind at 1.
  rewrite (mapM_ok_all _ (fun kv => entries (snd kv))).
  2:{ intros [k v] Hkv. apply Hnew in Hkv as (l & Hl & ->). reflexivity. }
  simpl bind at 1.
  set (fself := fun kv : string * raw => match dget (fst kv) self with Some l => l | None => [] end).
  set (fnew := fun kv : string * raw => entries (snd kv)).
  set (pairs := combine (concat (map fself new)) (concat (map fnew new))).
  set (inv_set := fun ni : Z => dedup Nat.eqb (map fst (filter (fun p => Z.eqb (snd p) ni) pairs))).
  assert (Hlenf : forall x, In x new -> length (fself x) = length (fnew x)).
  { intros [k v] Hkv. apply Hnew in Hkv as (l & Hl & ->). destruct (Hself k l Hl) as (l0 & E0 & El).
    unfold fself, fnew. simpl. rewrite E0, map_length. exact El. }
  (* each new channel comes from exactly one old channel *)
  assert (Hsrc : forall k l p c, reads t k l -> nth_error l p = Some c ->
            exists l0 c0, dget k self = Some l0 /\ nth_error l0 p = Some c0 /\ inv_set (Z.of_nat c) = [c0]).
  { intros k l p c Hl Hc. destruct (Hself k l Hl) as (l0 & E0 & El).
    destruct (nth_error l0 p) as [c0|] eqn:Hc0; [|apply nth_error_None in Hc0; apply nth_error_Some_lt in Hc; lia].
    exists l0, c0. split; [exact E0|]. split; [exact Hc0|].
    assert (Hin : In (c0, Z.of_nat c) pairs).
    { apply (combine_concat_In fself fnew new (k, RTuple (map Z.of_nat l)) p); [exact Hlenf|apply Hnew; eauto| |].
      - unfold fself. simpl. rewrite E0. exact Hc0.
      - unfold fnew. simpl. rewrite nth_error_map, Hc. reflexivity. }
    apply (dedup_all_eq _ nat_eqb_iff). split.
    - intros E. assert (Hx : In c0 (map fst (filter (fun p => Z.eqb (snd p) (Z.of_nat c)) pairs))).
      { apply in_map_iff. exists (c0, Z.of_nat c). split; [reflexivity|]. apply filter_In. split; [exact Hin|apply Z.eqb_refl]. }
      rewrite E in Hx. destruct Hx.
    - intros y Hy. apply in_map_iff in Hy as ([y' z] & E & Hy). simpl in E. subst y'. apply filter_In in Hy as [Hy Ez].
      simpl in Ez. apply Z.eqb_eq in Ez. subst z.
      apply combine_concat_inv in Hy as ([k2 v2] & p2 & Hx2 & H1 & H2); [|exact Hlenf].
      apply Hnew in Hx2 as (l2 & Hl2 & ->). unfold fnew in H2. simpl in H2.
      apply nth_error_map_some in H2 as (c2 & Hc2 & E2). apply Nat2Z.inj in E2. subst c2.
      destruct (Hself k2 l2 Hl2) as (m2 & Em2 & _). unfold fself in H1. simpl in H1. rewrite Em2 in H1.
      assert (G : nth_error l0 p = nth_error m2 p2).
      { eapply (Hal k l p k2 l2 p2 c); try eassumption; apply reads_dget; assumption. }
      congruence. }
  assert (Einv : forallb (fun ni => length (inv_set ni) =? 1) (concat (map fnew new)) = true).
  { apply forallb_forall. intros z Hz. apply in_concat in Hz as (x & Hx & Hz).
    apply in_map_iff in Hx as ([k v] & <- & Hkv). apply Hnew in Hkv as (l & Hl & ->).
    unfold fnew in Hz. simpl in Hz. apply in_map_iff in Hz as (c & <- & Hc). apply In_nth_error in Hc as [p Hc].
    destruct (Hsrc k l p c Hl Hc) as (? & ? & _ & _ & ->). reflexivity. }
  match goal with |- context [check (forallb ?f ?l) AssertionError] =>
    change (forallb f l) with (forallb (fun ni => length (inv_set ni) =? 1) (concat (map fnew new))) end.
  rewrite Einv. simpl bind at 1.
  assert (HnY : nb_channels Y = t_n t).
  { rewrite Hn. apply nb_channels_wf; [exact HY|]. apply plain_no; [exact HpY|simpl; auto 10]. }
  rewrite HnY.
  set (inv := fun i : nat => match inv_set (Z.of_nat i) with [si] => Ok si | _ => Err KeyError end).
  destruct (mapM_ok_exists inv (seq 0 (t_n t))) as [idx Hidx].
  { intros i Hi. apply in_seq in Hi. destruct (Hall i ltac:(lia)) as (k & l & Hl & Hil).
    apply In_nth_error in Hil as [p Hip]. destruct (Hsrc k l p i Hl Hip) as (? & c0 & _ & _ & E).
    exists c0. unfold inv. rewrite E. reflexivity. }
  assert (Hrange : forall c, In c idx -> c < t_n t).
  { intros c Hc. destruct (mapM_In_r _ _ _ _ Hidx Hc) as (i & Hi & Hic). apply in_seq in Hi.
    destruct (Hall i ltac:(lia)) as (k & l & Hl & Hil). apply In_nth_error in Hil as [p Hip].
    destruct (Hsrc k l p i Hl Hip) as (l0 & c0 & E0 & Hc0 & E). unfold inv in Hic. rewrite E in Hic.
    injection Hic as <-. rewrite Hn. apply dget_In in E0. apply (tv_range _ HvY k l0 c0 E0). eapply nth_error_In; eauto. }
  pose proof (mapM_length _ _ _ Hidx) as Hlidx. rewrite seq_length in Hlidx.
  assert (Hpos : 0 < t_n t).
  { destruct (ss_signals Y) as [|s l] eqn:E; [congruence|].
    assert (Hs : In s (ss_signals Y)) by (rewrite E; left; reflexivity).
    rewrite Hn, <- (ws_chan Y HY s Hs). pose proof (so_chan _ (ws_sync Y HY s Hs)).
    destruct (s_data s); [congruence|simpl; lia]. }
  destruct (mapM_ok_exists (fun s => s_select kone s idx) (ss_signals Y)) as [signals Hsig].
  { intros s Hs. pose proof (ws_sync Y HY s Hs) as Hok. pose proof (ws_chan Y HY s Hs) as Hch.
    assert (Hsel : forall i, In i idx -> i < length (s_data s)) by (intros i Hi; rewrite Hch, <- Hn; auto).
    destruct (mapM_ok_exists (nth_res (s_data s)) idx) as [d Hd].
    { intros i Hi. specialize (Hsel i Hi). destruct (nth_error (s_data s) i) as [x|] eqn:E.
      - exists x. apply nth_res_ok, E.
      - apply nth_error_None in E. lia. }
    destruct (mapM_ok_exists (nth_res (s_cal s)) idx) as [k Hkk].
    { intros i Hi. specialize (Hsel i Hi). rewrite <- (so_cal _ Hok) in Hsel.
      destruct (nth_error (s_cal s) i) as [x|] eqn:E.
      - exists x. apply nth_res_ok, E.
      - apply nth_error_None in E. lia. }
    unfold s_select. rewrite Hd, Hkk. simpl. apply sync_new_exists.
    - apply mapM_length in Hd. destruct d; [simpl in Hd; lia|discriminate].
    - apply mapM_length in Hd, Hkk. congruence.
    - intros a b Ha Hb. destruct (mapM_In_r _ _ _ _ Hd Ha) as (i & _ & Hi).
      destruct (mapM_In_r _ _ _ _ Hd Hb) as (j & _ & Hj). apply nth_res_ok in Hi, Hj.
      rewrite (so_size _ Hok a), (so_size _ Hok b); [reflexivity| |]; eapply nth_error_In; eauto. }
  match goal with |- context [bind (mapM ?f (ss_signals Y)) _] => set (G := f) end.
  assert (EG : mapM G (ss_signals Y) = Ok signals).
  { rewrite <- Hsig. apply mapM_ext. intros s _. unfold G.
    change (mapM _ (seq 0 (t_n t))) with (mapM inv (seq 0 (t_n t))). rewrite Hidx. reflexivity. }
  rewrite EG. simpl bind at 1. apply mapM_Forall2 in Hsig.
  assert (Hrun : Forall2 (run_selected idx) (ss_signals Y) signals).
  { assert (Hok : Forall (fun s => sync_ok s) (ss_signals Y)) by (apply Forall_forall; apply (ws_sync Y HY)).
    clear - Hsig Hok. induction Hsig as [|s s' l l' Hs HF IH]; [constructor|]. inversion Hok; subst.
    constructor; [eapply s_select_run; eassumption|auto]. }
  assert (Hsorted : sort_signals signals = signals).
  { apply sort_signals_sorted_id. eapply StronglySorted_map_iff; [exact Hrun| |apply wf_sorted; exact HY].
    intros x y x' y' (_ & Ex & _) (_ & Ey & _). unfold sync_lt. rewrite Ex, Ey. auto. }
  assert (Hlen : forall s, In s signals -> length (s_data s) = t_n t).
  { intros s Hs. apply In_nth_error in Hs as [j Hj].
    destruct (Forall2_nth_error_r _ _ _ _ _ Hrun Hj) as (s0 & _ & (_ & _ & _ & Hd & _)).
    apply Forall2_len in Hd. congruence. }
  rewrite set_of_syncs_ok; rewrite ?Hsorted.
  - destruct (set_tags_obj_ok signals t Hv Hp) as (t' & Ht' & Hd' & Heq).
    + destruct signals as [|s l]; [left; reflexivity|]. right. exists s. split; [reflexivity|].
      split; [apply Hlen; left; reflexivity|exact Hpos].
    + rewrite Ht'. simpl. eexists. split; [reflexivity|]. simpl. rewrite Heq; [reflexivity|].
      intros E. apply Forall2_len in Hrun. rewrite E in Hrun. destruct (ss_signals Y); [congruence|discriminate].
  - intros s s' Hs Hs'. rewrite !Hlen by assumption. reflexivity.
  - intros s Hs. apply In_nth_error in Hs as [j Hj].
    destruct (Forall2_nth_error_r _ _ _ _ _ Hrun Hj) as (s0 & Hs0 & (Er & _)).
    rewrite Er. apply (ws_rate Y HY). eapply nth_error_In; eauto.
  - rewrite (same_times_interval (ss_signals Y)); [apply no_overlap_wf, HY|].
    eapply Forall2_impl; [|exact Hrun]. intros s s' (E1 & E2 & E3 & _). auto.
Qed.

Lemma FOP_Forall2 {B C} (R : B -> B -> Prop) (R' : C -> C -> Prop) (P : B -> C -> Prop) l l' :
  Forall2 P l l' -> (forall x y x' y', P x x' -> P y y' -> R x y -> R' x' y') ->
  ForallOrdPairs R l -> ForallOrdPairs R' l'.
Proof.
  intros HF HR. induction HF as [|x x' l l' Hx Hl IH]; intros Hs; [constructor|].
  inversion Hs as [|? ? HFx Hs']; subst. constructor; [|auto].
  rewrite Forall_forall in *. intros y' Hy'. apply In_nth_error in Hy' as [j Hj].
  destruct (Forall2_nth_error_r _ _ _ _ _ Hl Hj) as (y & Hy & HPy). eapply HR; eauto. apply HFx. eapply nth_error_In; eauto.
Qed.

Theorem join_ok (X Y : sigset) : wf_set X -> wf_set Y -> plain (ss_tags X) -> plain (ss_tags Y) ->
  ss_signals X <> [] -> ss_signals Y <> [] ->
  same_keys (ss_tags Y) (ss_tags X) -> t_n (ss_tags X) = t_n (ss_tags Y) ->
  all_tagged (ss_tags X) -> aliases_kept (ss_tags X) (ss_tags Y) ->
  (forall s, In s (ss_signals X ++ ss_signals Y) -> forward s) ->
  distinct_starts (ss_signals X ++ ss_signals Y) -> disjoint_runs (ss_signals X ++ ss_signals Y) ->
  exists Z, join kone X [ASet Y] = Ok Z.
Proof.
  intros HX HY HpX HpY HneX HneY Hk Hn Hall Hal Hf Hd Hdj.
  destruct (reorder_ok Y (ss_tags X) HY HpY (ws_tags X HX) HpX HneY Hk Hn Hall Hal) as (Y' & HY' & HnY').
  unfold join, set_new. simpl. rewrite reorder_self by exact HX. simpl. rewrite HY'. simpl. rewrite app_nil_r.
  pose proof (reorder_wf kone L Y _ Y' HY HY') as HwY'.
  apply (reorder_spec kone L) in HY' as (HF & Hky & Hst); [|exact HY|apply (ws_tags X HX)].
  assert (HP : Forall2 (fun s s' => s_rate s' = s_rate s /\ s_start s' = s_start s /\ s_size s' = s_size s)
                 (ss_signals X ++ ss_signals Y) (ss_signals X ++ ss_signals Y')).
  { apply Forall2_app.
    - clear. induction (ss_signals X) as [|s l IH]; constructor; auto.
    - eapply Forall2_impl; [|exact HF]. intros s s' (E1 & E2 & E3 & _). auto. }
  assert (Hlast : forall s s' : sync, s_rate s' = s_rate s /\ s_start s' = s_start s /\ s_size s' = s_size s -> last_time s' = last_time s).
  { intros s s' (E1 & E2 & E3). unfold last_time, sample_time. rewrite E1, E2, E3. reflexivity. }
  assert (Hchan : forall s, In s (ss_signals X ++ ss_signals Y') -> length (s_data s) = t_n (ss_tags X)).
  { intros s Hs. apply in_app_iff in Hs as [Hs|Hs]; [apply (ws_chan X HX s Hs)|]. rewrite (ws_chan Y' HwY' s Hs). exact HnY'. }
  assert (Hrate : forall s, In s (ss_signals X ++ ss_signals Y') -> neqb A (s_rate s) (nzero A) = false).
  { intros s Hs. apply in_app_iff in Hs as [Hs|Hs]; [apply (ws_rate X HX s Hs)|apply (ws_rate Y' HwY' s Hs)]. }
  assert (Hf' : forall s, In s (ss_signals X ++ ss_signals Y') -> forward s).
  { intros s' Hs'. apply In_nth_error in Hs' as [j Hj]. destruct (Forall2_nth_error_r _ _ _ _ _ HP Hj) as (s & Hs & HE).
    unfold forward. rewrite (Hlast s s' HE). destruct HE as (_ & -> & _). apply Hf. eapply nth_error_In; eauto. }
  assert (Hd' : distinct_starts (ss_signals X ++ ss_signals Y')).
  { eapply FOP_Forall2; [exact HP| |exact Hd]. intros x y x' y' (_ & -> & _) (_ & -> & _). auto. }
  assert (Hdj' : disjoint_runs (ss_signals X ++ ss_signals Y')).
  { eapply FOP_Forall2; [exact HP| |exact Hdj]. intros x y x' y' Ex Ey. simpl.
    rewrite (Hlast x x' Ex), (Hlast y y' Ey). destruct Ex as (_ & -> & _), Ey as (_ & -> & _). auto. }
  rewrite set_of_syncs_ok; [|intros s s' Hs Hs'; rewrite !Hchan by assumption; reflexivity|exact Hrate|apply (no_overlap_iff L); assumption].
  destruct (set_tags_obj_ok (sort_signals (ss_signals X ++ ss_signals Y')) (ss_tags X) (ws_tags X HX) HpX) as (t' & Ht' & _ & _).
  - destruct (sort_signals (ss_signals X ++ ss_signals Y')) as [|s l] eqn:E; [left; reflexivity|right]. exists s. split; [reflexivity|].
    assert (Hs : In s (ss_signals X ++ ss_signals Y')) by (apply sort_signals_In; rewrite E; left; reflexivity).
    split; [apply Hchan, Hs|]. rewrite <- (Hchan s Hs).
    assert (Hok : sync_ok s) by (apply in_app_iff in Hs as [Hs|Hs]; [apply (ws_sync X HX s Hs)|apply (ws_sync Y' HwY' s Hs)]).
    pose proof (so_chan _ Hok). destruct (s_data s); [congruence|simpl; lia].
  - rewrite Ht'. simpl. eauto.
Qed.
End JoinOk.
