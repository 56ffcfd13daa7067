(** Reordering of channels and join. *)
From Verif Require Import Base BaseLemmas SliceLemmas Arith OrdLaws TagsModel SpecTags TagsProofs
  SyncModel SetModel SpecSet SetProofs SpecSelect TrackProofs SelectProofs OrderProofs.

Definition tagarg_valid (tg : tagarg) : Prop :=
  match tg with TObj t => tags_valid t | TDict d => NoDup (dkeys d) end.

Lemma combine_app_eq {B C} (a1 a2 : list B) (b1 b2 : list C) : length a1 = length b1 ->
  combine (a1 ++ a2) (b1 ++ b2) = combine a1 b1 ++ combine a2 b2.
Proof.
  revert b1. induction a1 as [|x a1 IH]; intros [|y b1] H; simpl in *; try discriminate; [reflexivity|].
  f_equal. apply IH. lia.
Qed.

Lemma combine_concat_In {B C D} (f : B -> list C) (g : B -> list D) l x p c z :
  (forall x, In x l -> length (f x) = length (g x)) -> In x l ->
  nth_error (f x) p = Some c -> nth_error (g x) p = Some z ->
  In (c, z) (combine (concat (map f l)) (concat (map g l))).
Proof.
  intros Hl Hx Hc Hz. induction l as [|y l IH]; [destruct Hx|]. simpl.
  rewrite combine_app_eq by (apply Hl; left; reflexivity). apply in_app_iff.
  destruct Hx as [->|Hx].
  - left. clear - Hc Hz. revert p Hc Hz. generalize (f x), (g x). intros a.
    induction a as [|u a IH]; intros [|v b] [|p] Hc Hz; simpl in *; try discriminate.
    + injection Hc as ->; injection Hz as ->; auto.
    + right. eapply IH; eauto.
  - right. apply IH; [|exact Hx]. intros; apply Hl; right; assumption.
Qed.

Lemma tags_eqb_dget a b : tags_valid a -> tags_valid b -> tags_eqb a b = true ->
  forall k, dget k (t_dict a) = dget k (t_dict b).
Proof.
  intros Ha Hb H k. unfold tags_eqb in H. rewrite !andb_true_iff, !dict_subb_iff in H by (apply Ha || apply Hb).
  destruct H as [[H1 H2] _].
  destruct (dget k (t_dict a)) as [v|] eqn:E; [symmetry; auto|].
  destruct (dget k (t_dict b)) as [v|] eqn:E'; [|reflexivity]. apply H2 in E'. congruence.
Qed.

Lemma idx_mem_nonneg z i : idx_mem z i = true -> (0 <= z)%Z.
Proof.
  destruct i as [n|l]; simpl; [lia|]. intros H. apply (memb_In _ Z.eqb_eq) in H.
  apply in_map_iff in H as (c & <- & _). lia.
Qed.

Lemma update_nonneg d : forall t t', t_update t d = (t', Ok tt) ->
  forall k v z, In (k, v) d -> In z (entries v) -> (0 <= z)%Z.
Proof.
  induction d as [|[k0 v0] d IH]; intros t t' H k v z Hk Hz; [destruct Hk|]. simpl in H.
  destruct (t_set t k0 v0) as [t1|e] eqn:E; [|discriminate].
  destruct Hk as [Hk|Hk]; [|eapply IH; eauto]. injection Hk as -> ->.
  unfold t_set in E. apply bind_ok in E as (? & _ & E). apply bind_ok in E as (? & _ & E).
  apply bind_ok in E as (? & Hc & _). apply check_ok in Hc. rewrite forallb_forall in Hc.
  apply idx_mem_nonneg with (i := t_indices t). apply Hc. destruct v; exact Hz.
Qed.

Lemma tags_new_nonneg n d t : tags_new n d = Ok t ->
  forall k v z, In (k, v) d -> In z (entries v) -> (0 <= z)%Z.
Proof.
  unfold tags_new. intros H. apply bind_ok in H as (? & _ & H).
  destruct (t_update _ d) as [t' [[]|e]] eqn:E; [|discriminate]. eapply update_nonneg; eauto.
Qed.

Section Join.
Context {A : Arith} {V K : Type} (kone : K) (L : OrdLaws A).
Notation sync := (sync A V K).
Notation sigset := (@sigset A V K).

Lemma set_tags_dict (signals : list sync) old tg t : tagarg_valid tg ->
  set_tags signals old tg = Ok t -> t_dict t = store (arg_dict tg).
Proof.
  intros Hv H. destruct tg as [t0|d]; simpl in Hv.
  - rewrite store_obj. eapply set_tags_obj; eauto.
  - unfold set_tags in H. simpl in H. eapply tags_new_dict; [|exact H]. exact Hv.
Qed.

Lemma In_store d k l : In (k, l) (store d) <-> exists v, In (k, v) d /\ l = map Z.to_nat (entries v).
Proof.
  unfold store. rewrite in_map_iff. split.
  - intros ([k0 v] & E & H). injection E as <- <-. eauto.
  - intros (v & H & ->). exists (k, v). auto.
Qed.

Theorem reorder_spec (X : sigset) tg Y : wf_set X -> tagarg_valid tg -> reorder kone X tg = Ok Y ->
  Forall2 (fun s s' => same_run (ss_tags X) s (ss_tags Y) s') (ss_signals X) (ss_signals Y) /\
  same_keys (ss_tags X) (ss_tags Y) /\
  (forall k l, reads (ss_tags Y) k l <-> In (k, l) (store (arg_dict tg))).
Proof.
  intros HX Hv H. pose proof (ws_tags X HX) as HvX. unfold reorder in H.
  destruct (match tg with TObj t => tags_eqb (ss_tags X) t | TDict _ => false end) eqn:Eeq.
  { injection H as <-. split; [|split].
    - induction (ss_signals X) as [|s l IH]; constructor; [|exact IH]. repeat split; auto.
    - intros k n; tauto.
    - destruct tg as [t|d]; [|discriminate]. simpl in Hv. intros k l. rewrite store_obj.
      fold (reads t k l). rewrite (reads_dget _ _ _ HvX), (reads_dget _ _ _ Hv).
      rewrite (tags_eqb_dget _ _ HvX Hv Eeq). tauto. }
  clear Eeq. set (self := t_dict (ss_tags X)) in *. set (new := arg_dict tg) in *.
  apply bind_ok in H as (u1 & Hkeys & H). apply check_ok in Hkeys.
  rewrite (seteqb_iff _ string_eqb_iff) in Hkeys.
  apply bind_ok in H as (u2 & Hlen & H).
  apply bind_ok in H as (idxn & Hidxn & H).
  apply bind_ok in H as (u3 & Hinv & H). apply check_ok in Hinv. rewrite forallb_forall in Hinv.
  apply bind_ok in H as (signals & Hsig & H).
  (* facts on new *)
  assert (Hnew : forall k v, In (k, v) new -> exists l l0, v = RTuple l /\ dget k self = Some l0 /\ length l = length l0).
  { intros k v Hkv. destruct (mapM_In _ _ _ _ Hlen Hkv) as (? & _ & H1).
    destruct (mapM_In _ _ _ _ Hidxn Hkv) as (l & _ & H2). simpl in *.
    destruct v as [z|l1|l1]; try discriminate. injection H2 as <-. apply check_ok in H1.
    destruct (dget k self) as [l0|] eqn:E; [|discriminate]. apply Nat.eqb_eq in H1. eauto. }
  set (fself := fun kv : string * raw => match dget (fst kv) self with Some l => l | None => [] end) in *.
  set (fnew := fun kv : string * raw => entries (snd kv)) in *.
  assert (Eidx : idxn = map fnew new).
  { apply mapM_Forall2 in Hidxn. clear - Hidxn. induction Hidxn as [|[k v] l a b Hx Hl IH]; [reflexivity|].
    simpl. f_equal; [|exact IH]. simpl in Hx. destruct v; try discriminate. injection Hx as <-. reflexivity. }
  subst idxn. set (pairs := combine (concat (map fself new)) (concat (map fnew new))) in *.
  set (inv_set := fun ni : Z => dedup Nat.eqb (map fst (filter (fun p => Z.eqb (snd p) ni) pairs))) in *.
  assert (Hpair : forall c z, In (c, z) pairs -> inv_set z = [c]).
  { intros c z Hcz.
    assert (Hz : In z (concat (map fnew new))).
    { unfold pairs in Hcz. apply in_combine_r in Hcz. exact Hcz. }
    specialize (Hinv z Hz). apply Nat.eqb_eq in Hinv. change (length (inv_set z) = 1) in Hinv.
    assert (Hc : In c (inv_set z)).
    { unfold inv_set. apply (In_dedup _ nat_eqb_iff). apply in_map_iff. exists (c, z). split; [reflexivity|].
      apply filter_In. split; [exact Hcz|]. apply Z.eqb_refl. }
    destruct (inv_set z) as [|a [|b r]]; simpl in *; try lia. destruct Hc as [->|[]]. reflexivity. }
  assert (Hpos : forall k l l0 p c z, In (k, RTuple l) new -> dget k self = Some l0 ->
            nth_error l0 p = Some c -> nth_error l p = Some z -> inv_set z = [c]).
  { intros k l l0 p c z Hk Hl0 Hc Hz. apply Hpair.
    apply (combine_concat_In fself fnew new (k, RTuple l) p).
    - intros [k1 v1] H1. destruct (Hnew _ _ H1) as (l1 & l2 & -> & E & El). unfold fself, fnew. simpl. rewrite E. congruence.
    - exact Hk.
    - unfold fself. simpl. rewrite Hl0. exact Hc.
    - exact Hz. }
  set (inv := fun i : nat => match inv_set (Z.of_nat i) with [si] => Ok si | _ => Err KeyError end) in *.
  (* the new runs are selections of the old ones *)
  assert (Hsel : Forall2 (fun s s' => exists idx, mapM inv (seq 0 (nb_channels X)) = Ok idx /\ s_select kone s idx = Ok s')
                         (ss_signals X) signals).
  { apply mapM_Forall2 in Hsig. eapply Forall2_impl; [|exact Hsig]. intros s s' Hs. simpl in Hs.
    apply bind_ok in Hs as (idx & Hidx & Hs). exists idx. split; [exact Hidx|]. exact Hs. }
  assert (Hrun : Forall2 (fun s s' => exists idx, mapM inv (seq 0 (nb_channels X)) = Ok idx /\ s_select kone s idx = Ok s' /\
                             run_selected idx s s') (ss_signals X) signals).
  { assert (Hok : Forall (fun s => sync_ok s) (ss_signals X)) by (apply Forall_forall; apply (ws_sync X HX)).
    clear - Hsel Hok. induction Hsel as [|s s' l l' (idx & Hi & Hs) HF IH]; [constructor|]. inversion Hok; subst.
    constructor; [|auto]. exists idx. split; [exact Hi|]. split; [exact Hs|]. apply s_select_run with (kone := kone); assumption. }
  assert (Hsorted : sort_signals signals = signals).
  { apply sort_signals_sorted_id. eapply StronglySorted_map_iff; [exact Hrun| |apply wf_sorted; exact HX].
    intros x y x' y' (? & _ & _ & _ & Ex & _) (? & _ & _ & _ & Ey & _). unfold sync_lt. rewrite Ex, Ey. auto. }
  assert (HY : wf_set Y).
  { eapply (set_of_syncs_wf L); [|exact H]. intros s Hs. apply In_nth_error in Hs as [j Hj].
    destruct (Forall2_nth_error_r _ _ _ _ _ Hsel Hj) as (s0 & _ & (idx & _ & Hss)). apply s_select_inv in Hss. tauto. }
  pose proof (ws_tags Y HY) as HvY. pose proof (ws_chan Y HY) as HcY.
  apply set_of_syncs_inv in H as (_ & _ & Es & _ & Ht). rewrite Hsorted in Es, Ht.
  assert (Hnn : forall k v z, In (k, v) new -> In z (entries v) -> (0 <= z)%Z).
  { unfold set_tags in Ht. apply bind_ok in Ht as (? & _ & Ht). apply bind_ok in Ht as (? & _ & Ht).
    eapply tags_new_nonneg; eauto. }
  apply set_tags_dict in Ht; [|exact Hv].
  assert (HreadsY : forall k l, reads (ss_tags Y) k l <-> In (k, l) (store new)).
  { intros k l. unfold reads. rewrite Ht. tauto. }
  assert (HXY : forall k l0, reads (ss_tags X) k l0 -> exists l, In (k, RTuple l) new /\ length l = length l0).
  { intros k l0 Hl0. assert (Hk : In k (dkeys new)).
    { apply Hkeys. unfold dkeys. apply in_map_iff. exists (k, l0). auto. }
    apply in_map_iff in Hk as ([k' v] & Ek & Hkv). simpl in Ek. subst k'.
    destruct (Hnew _ _ Hkv) as (l & l1 & -> & E & El). exists l. split; [exact Hkv|].
    apply (reads_dget _ _ _ HvX) in Hl0. unfold self in E. congruence. }
  split; [|split; [|exact HreadsY]].
  - rewrite Es.
    assert (HF : Forall2 (fun s s' => In s' signals /\ exists idx, mapM inv (seq 0 (nb_channels X)) = Ok idx /\ s_select kone s idx = Ok s' /\
                             run_selected idx s s') (ss_signals X) signals).
    { assert (G : forall l, incl l signals -> forall m, Forall2 (fun s s' => exists idx, mapM inv (seq 0 (nb_channels X)) = Ok idx /\ s_select kone s idx = Ok s' /\
                             run_selected idx s s') m l -> Forall2 (fun s s' => In s' signals /\ exists idx, mapM inv (seq 0 (nb_channels X)) = Ok idx /\ s_select kone s idx = Ok s' /\
                             run_selected idx s s') m l).
      { induction l as [|x l IH]; intros Hi m Hm; inversion Hm; subst; constructor.
        - split; [apply Hi; left; reflexivity|assumption].
        - apply IH; [intros y Hy; apply Hi; right; exact Hy|assumption]. }
      apply G; [apply incl_refl|exact Hrun]. }
    eapply Forall2_impl; [|exact HF]. intros s s' [Hins (idx & Hidx & Hss & (Er & Est & Esz & Hd & _))].
    split; [exact Er|]. split; [exact Est|]. split; [exact Esz|].
    (* position by position *)
    assert (Key : forall k l l0 p c z g, In (k, RTuple l) new -> dget k self = Some l0 ->
              nth_error l0 p = Some c -> nth_error l p = Some z ->
              (is_seg s' (Z.to_nat z) g <-> is_seg s c g)).
    { intros k l l0 p c z g Hk Hl0 Hc Hz.
      apply (select_seg kone s idx s' (Z.to_nat z) c g Hss).
      assert (HlY : reads (ss_tags Y) k (map Z.to_nat l)) by (apply HreadsY, In_store; exists (RTuple l); auto).
      assert (Hlt : Z.to_nat z < length idx).
      { apply Forall2_len in Hd. rewrite Hd. rewrite HcY by (rewrite Es; exact Hins).
        apply (tv_range _ HvY _ _ _ HlY). apply in_map. eapply nth_error_In; eauto. }
      assert (Hz0 : (0 <= z)%Z).
      { apply (Hnn k (RTuple l)); [exact Hk|]. simpl. eapply nth_error_In; eauto. }
      destruct (nth_error idx (Z.to_nat z)) as [c'|] eqn:E; [|apply nth_error_None in E; lia].
      destruct (mapM_nth_r _ _ _ _ _ Hidx E) as (i & Hi & Hic).
      rewrite nth_error_seq in Hi. destruct (_ <? _); [|discriminate]. injection Hi as <-. simpl in Hic.
      unfold inv in Hic. rewrite Z2Nat.id in Hic by exact Hz0. rewrite (Hpos k l l0 p c z) in Hic by assumption.
      injection Hic as <-. reflexivity. }
    intros k p g. split.
    + intros (l0 & c & Hl0 & Hc & Hg). destruct (HXY _ _ Hl0) as (l & Hl & Hll).
      destruct (nth_error l p) as [z|] eqn:Hz; [|apply nth_error_None in Hz; apply nth_error_Some_lt in Hc; lia].
      exists (map Z.to_nat l), (Z.to_nat z). split; [apply HreadsY, In_store; exists (RTuple l); auto|].
      split; [rewrite nth_error_map, Hz; reflexivity|].
      eapply Key; eauto. apply reads_dget; assumption.
    + intros (l' & c' & Hl' & Hc' & Hg). apply HreadsY, In_store in Hl' as (v & Hkv & ->).
      destruct (Hnew _ _ Hkv) as (l & l0 & -> & E & El). simpl in Hc'.
      apply nth_error_map_some in Hc' as (z & Hz & ->).
      destruct (nth_error l0 p) as [c|] eqn:Hc; [|apply nth_error_None in Hc; apply nth_error_Some_lt in Hz; lia].
      exists l0, c. split; [apply reads_dget; assumption|]. split; [exact Hc|]. eapply Key; eauto.
  - intros k n. split.
    + intros (l0 & Hl0 & <-). destruct (HXY _ _ Hl0) as (l & Hl & Hll). exists (map Z.to_nat l).
      split; [apply HreadsY, In_store; exists (RTuple l); auto|]. rewrite map_length. exact Hll.
    + intros (l' & Hl' & <-). apply HreadsY, In_store in Hl' as (v & Hkv & ->).
      destruct (Hnew _ _ Hkv) as (l & l0 & -> & E & El). exists l0. split; [apply reads_dget; assumption|].
      simpl. rewrite map_length. congruence.
Qed.

(** ** what a constructed set contains *)
Lemma same_run_refl t (s : sync) : same_run t s t s.
Proof. repeat split; auto. Qed.
Lemma same_run_sym t (s : sync) t' s' : same_run t s t' s' -> same_run t' s' t s.
Proof. intros (H1 & H2 & H3 & H4). repeat split; try congruence; apply H4. Qed.
Lemma same_run_trans t (s : sync) t' s' t'' s'' : same_run t s t' s' -> same_run t' s' t'' s'' -> same_run t s t'' s''.
Proof.
  intros (H1 & H2 & H3 & H4) (G1 & G2 & G3 & G4). split; [congruence|]. split; [congruence|]. split; [congruence|].
  intros k p g. rewrite H4. apply G4.
Qed.
Lemma same_run_tags t (s : sync) t' s' t'' : (forall k l, reads t' k l <-> reads t'' k l) ->
  same_run t s t' s' -> same_run t s t'' s'.
Proof.
  intros Ht (H1 & H2 & H3 & H4). split; [exact H1|]. split; [exact H2|]. split; [exact H3|].
  intros k p g. rewrite H4. unfold reads_seg. split; intros (l & c & Hl & H); exists l, c; (split; [apply Ht|]; assumption).
Qed.

Lemma Forall2_concat {B C} (R : B -> C -> Prop) ll ll' : Forall2 (Forall2 R) ll ll' -> Forall2 R (concat ll) (concat ll').
Proof. induction 1; simpl; [constructor|]. apply Forall2_app; assumption. Qed.

Lemma Forall2_map_l {B B' C} (f : B' -> B) (R : B -> C -> Prop) l l' : Forall2 R (map f l) l' <-> Forall2 (fun x y => R (f x) y) l l'.
Proof.
  revert l'. induction l as [|x l IH]; intros l'; simpl; split; intros H; inversion H; subst; constructor; try assumption; apply IH; assumption.
Qed.

Lemma Forall2_flip {B C} (R : B -> C -> Prop) l l' : Forall2 R l l' -> Forall2 (fun y x => R x y) l' l.
Proof. induction 1; constructor; auto. Qed.

Lemma Forall2_perm_r {B C} (R : B -> C -> Prop) l l' m' : Permutation l' m' -> Forall2 R l l' ->
  exists m, Permutation l m /\ Forall2 R m m'.
Proof.
  intros HP H. apply Forall2_flip in H. destruct (Forall2_perm_l _ _ _ _ HP H) as (m & Hm & HR).
  exists m. split; [exact Hm|]. apply Forall2_flip in HR. exact HR.
Qed.

Theorem set_new_holds tg args (Z : sigset) : tagarg_valid tg ->
  (forall X : sigset, In (ASet X) args -> wf_set X) -> set_new kone tg args = Ok Z ->
  holds (concat (map (arg_runs (ss_tags Z)) args)) Z /\
  (forall X : sigset, In (ASet X) args -> same_keys (ss_tags X) (ss_tags Z)).
Proof.
  intros Hv Hwf H. unfold set_new in H. apply bind_ok in H as (sets & Hsets & H).
  pose proof H as H'. apply set_of_syncs_inv in H' as (_ & _ & Es & _ & Ht). apply set_tags_dict in Ht; [|exact Hv].
  assert (Hst : forall Y : sigset, (forall k l, reads (ss_tags Y) k l <-> In (k, l) (store (arg_dict tg))) ->
                 forall k l, reads (ss_tags Y) k l <-> reads (ss_tags Z) k l).
  { intros Y HY k l. rewrite HY. unfold reads. rewrite Ht. tauto. }
  split.
  - assert (HF : Forall2 (Forall2 (run_is (ss_tags Z))) (map (arg_runs (ss_tags Z)) args) sets).
    { apply Forall2_map_l. apply mapM_Forall2 in Hsets. clear - Hsets Hwf Hv Hst L.
      induction Hsets as [|a l args sets Ha Hs IH]; constructor.
      - destruct a as [s|X]; simpl in *.
        + injection Ha as <-. constructor; [apply same_run_refl|constructor].
        + apply bind_ok in Ha as (Y & HY & E). injection E as <-.
          apply reorder_spec in HY as (HF & _ & Hk); [|apply Hwf; left; reflexivity|exact Hv].
          apply Forall2_map_l. eapply Forall2_impl; [|exact HF]. intros s s' Hs'. unfold run_is. simpl.
          eapply same_run_tags; [|exact Hs']. apply Hst, Hk.
      - apply IH. intros X HX. apply Hwf. right; exact HX. }
    apply Forall2_concat in HF.
    destruct (Forall2_perm_r _ _ _ (ss_signals Z) ltac:(rewrite Es; apply sort_perm) HF) as (m & Hm & HR).
    exists m. auto.
  - intros X HX. destruct (mapM_In _ _ _ _ Hsets HX) as (l & _ & Hl). simpl in Hl.
    apply bind_ok in Hl as (Y & HY & _). apply reorder_spec in HY as (_ & Hk & Hr); [|apply Hwf; exact HX|exact Hv].
    intros k n. rewrite (Hk k n). pose proof (Hst Y Hr) as G.
    split; intros (l' & Hl' & E); exists l'; (split; [apply G|]; assumption).
Qed.

Lemma holds_trans base base' (Z : sigset) : holds base' Z ->
  (exists m, Permutation base m /\ Forall2 (fun ts ts' => same_run (fst ts) (snd ts) (fst ts') (snd ts')) m base') ->
  holds base Z.
Proof.
  intros (runs & HP & HR) (m & Hm & HF).
  destruct (Forall2_perm_r _ _ _ _ HP HF) as (m' & Hm' & HF').
  exists m'. split; [etransitivity; eassumption|]. clear - HF' HR.
  revert HR. generalize (ss_signals Z). induction HF' as [|x y l l' Hxy HF IH]; intros r HR; inversion HR; subst; constructor.
  - unfold run_is in *. eapply same_run_trans; eauto.
  - auto.
Qed.

Lemma holds_unique base (Z Z' : sigset) : wf_set Z -> wf_set Z' -> distinct_starts (ss_signals Z) ->
  holds base Z -> holds base Z' -> same_content Z Z'.
Proof.
  intros HZ HZ' Hd (r1 & P1 & F1) (r2 & P2 & F2).
  set (plt := fun x y : tags * sync => sync_lt (snd x) (snd y)).
  assert (Hsort : forall r (W : sigset), wf_set W -> Forall2 (run_is (ss_tags W)) r (ss_signals W) ->
             StronglySorted (fun x y => plt y x = false) r).
  { intros r W HW HF. eapply (StronglySorted_map_iff _ _ (fun s ts => run_is (ss_tags W) ts s)); [apply Forall2_flip; exact HF| |apply wf_sorted; exact HW].
    intros x y [t s] [t' s'] (_ & Ex & _) (_ & Ey & _). unfold plt, sync_lt. simpl in *. rewrite Ex, Ey. auto. }
  assert (Hdr : ForallOrdPairs (fun x y => plt x y = true \/ plt y x = true) r1).
  { apply FOP_of_nth. intros i j x y Hij Hi Hj.
    destruct (Forall2_nth_error _ _ _ _ _ F1 Hi) as (s & Hs & (_ & Ex & _)).
    destruct (Forall2_nth_error _ _ _ _ _ F1 Hj) as (s' & Hs' & (_ & Ey & _)).
    unfold plt, sync_lt. rewrite <- Ex, <- Ey. exact (FOP_nth _ _ i j s s' Hd Hij Hs Hs'). }
  assert (E : r1 = r2).
  { apply (sorted_perm_unique plt).
    - rewrite <- P1. exact P2.
    - exact (Hsort r1 Z HZ F1).
    - exact (Hsort r2 Z' HZ' F2).
    - intros x y Hx Hy H1 H2. apply In_nth_error in Hx as [i Hi], Hy as [j Hj].
      destruct (Nat.lt_trichotomy i j) as [Hij|[->|Hij]]; [|congruence|].
      + destruct (FOP_nth _ _ i j x y Hdr Hij Hi Hj); congruence.
      + destruct (FOP_nth _ _ j i y x Hdr Hij Hj Hi); congruence. }
  subst r2. unfold same_content. clear - F1 F2. revert F2. generalize (ss_signals Z').
  induction F1 as [|x s r l Hx HF IH]; intros l' F2; inversion F2; subst; constructor.
  - unfold run_is in *. eapply same_run_trans; [apply same_run_sym|]; eauto.
  - auto.
Qed.

Lemma same_content_tracks (Z Z' : sigset) : wf_set Z -> wf_set Z' -> same_keys (ss_tags Z) (ss_tags Z') ->
  same_content Z Z' -> same_reading Z Z'.
Proof.
  intros HZ HZ' Hk HC. split; [exact Hk|].
  assert (Dir : forall Z Z' : sigset, wf_set Z -> wf_set Z' -> same_keys (ss_tags Z) (ss_tags Z') -> same_content Z Z' ->
             forall k p gs, tracks Z k p gs -> tracks Z' k p gs).
  { clear. intros Z Z' HZ HZ' Hk HC k p gs (l & c & Hl & Hc & HF).
    destruct (proj1 (Hk k (length l)) (ex_intro _ l (conj Hl eq_refl))) as (l' & Hl' & El).
    destruct (nth_error l' p) as [c'|] eqn:Hc'; [|apply nth_error_None in Hc'; apply nth_error_Some_lt in Hc; lia].
    exists l', c'. split; [exact Hl'|]. split; [exact Hc'|]. unfold same_content in HC.
    revert gs HF. induction HC as [|s s' r r' Hs HC IH]; intros gs HF; inversion HF; subst; constructor; [|auto].
    destruct Hs as (_ & _ & _ & Hs).
    destruct (proj1 (Hs k p y) (ex_intro _ l (ex_intro _ c (conj Hl (conj Hc H1))))) as (l2 & c2 & Hl2 & Hc2 & Hg).
    apply (reads_dget _ _ _ (ws_tags Z' HZ')) in Hl', Hl2. assert (l2 = l') by congruence. subst l2.
    assert (c2 = c') by congruence. subst c2. exact Hg. }
  intros k p gs. split; [apply Dir; assumption|]. apply Dir; try assumption.
  - intros k0 n. symmetry. apply Hk.
  - apply Forall2_flip in HC. eapply Forall2_impl; [|exact HC]. intros s s'. apply same_run_sym.
Qed.

Lemma same_keys_sym t t' : same_keys t t' -> same_keys t' t.
Proof. intros H k n. symmetry. apply H. Qed.
Lemma same_keys_trans t t' t'' : same_keys t t' -> same_keys t' t'' -> same_keys t t''.
Proof. intros H H' k n. rewrite (H k n). apply H'. Qed.

(** ** join *)
Theorem join_holds (X : sigset) args Z : wf_set X ->
  (forall Y : sigset, In (ASet Y) args -> wf_set Y) -> join kone X args = Ok Z ->
  holds (set_runs X ++ concat (map (arg_runs (ss_tags Z)) args)) Z /\
  (forall Y : sigset, In (ASet Y) (ASet X :: args) -> same_keys (ss_tags Y) (ss_tags Z)).
Proof.
  intros HX Hargs H. unfold join in H. apply set_new_holds in H; [exact H|apply (ws_tags X HX)|].
  intros Y [E|HY]; [injection E as <-; exact HX|auto].
Qed.

Lemma join2_holds (X Y Z : sigset) : wf_set X -> wf_set Y -> join kone X [ASet Y] = Ok Z ->
  wf_set Z /\ holds (set_runs X ++ set_runs Y) Z /\ same_keys (ss_tags X) (ss_tags Z) /\ same_keys (ss_tags Y) (ss_tags Z).
Proof.
  intros HX HY H.
  assert (HZ : wf_set Z).
  { eapply (join_wf kone L); [exact HX| | |exact H].
    - intros s [E|[]]; discriminate.
    - intros W [E|[]]; injection E as <-; exact HY. }
  apply join_holds in H as [H Hk]; [|exact HX|intros W [E|[]]; injection E as <-; exact HY].
  simpl in H. rewrite app_nil_r in H. split; [exact HZ|]. split; [exact H|].
  split; apply Hk; simpl; auto.
Qed.

Theorem join_comm (X Y Z Z' : sigset) : wf_set X -> wf_set Y ->
  join kone X [ASet Y] = Ok Z -> join kone Y [ASet X] = Ok Z' -> distinct_starts (ss_signals Z) ->
  same_content Z Z' /\ same_reading Z Z'.
Proof.
  intros HX HY H H' Hd.
  destruct (join2_holds X Y Z HX HY H) as (HZ & Hh & Hk1 & Hk2).
  destruct (join2_holds Y X Z' HY HX H') as (HZ' & Hh' & Hk1' & Hk2').
  assert (HC : same_content Z Z').
  { apply (holds_unique (set_runs X ++ set_runs Y)); try assumption.
    destruct Hh' as (r & P & F). exists r. split; [|exact F]. rewrite <- P. apply Permutation_app_comm. }
  split; [exact HC|]. apply same_content_tracks; try assumption.
  eapply same_keys_trans; [apply same_keys_sym; exact Hk1|exact Hk2'].
Qed.

Lemma holds_subst (X Y : sigset) base base' : holds base X ->
  exists m, Permutation (base ++ base') m /\
    Forall2 (fun ts ts' => same_run (fst ts) (snd ts) (fst ts') (snd ts')) m (set_runs X ++ base').
Proof.
  intros (r & P & F). exists (r ++ base'). split; [apply Permutation_app_tail; exact P|].
  apply Forall2_app.
  - unfold set_runs. clear - F. revert F. generalize (ss_signals X). intros l. revert r.
    induction l as [|s l IH]; intros r F; inversion F; subst; constructor; auto.
  - clear. induction base' as [|[t s] l IH]; constructor; [apply same_run_refl|exact IH].
Qed.

Theorem join_assoc (X Y W XY YW Z Z' : sigset) : wf_set X -> wf_set Y -> wf_set W ->
  join kone X [ASet Y] = Ok XY -> join kone XY [ASet W] = Ok Z ->
  join kone Y [ASet W] = Ok YW -> join kone X [ASet YW] = Ok Z' ->
  distinct_starts (ss_signals Z) -> same_content Z Z' /\ same_reading Z Z'.
Proof.
  intros HX HY HW H1 H2 H3 H4 Hd.
  destruct (join2_holds _ _ _ HX HY H1) as (HXY & Hh1 & K1 & _).
  destruct (join2_holds _ _ _ HXY HW H2) as (HZ & Hh2 & K2 & _).
  destruct (join2_holds _ _ _ HY HW H3) as (HYW & Hh3 & _ & _).
  destruct (join2_holds _ _ _ HX HYW H4) as (HZ' & Hh4 & K4 & _).
  assert (G1 : holds (set_runs X ++ set_runs Y ++ set_runs W) Z).
  { eapply holds_trans; [exact Hh2|]. rewrite app_assoc. apply holds_subst; assumption. }
  assert (G2 : holds (set_runs X ++ set_runs Y ++ set_runs W) Z').
  { eapply holds_trans; [exact Hh4|].
    destruct (holds_subst YW YW (set_runs Y ++ set_runs W) (set_runs X) Hh3) as (m & Pm & Fm).
    destruct (Forall2_perm_r _ _ _ (set_runs X ++ set_runs YW) (Permutation_app_comm _ _) Fm) as (m' & Pm' & Fm').
    exists m'. split; [|exact Fm']. rewrite <- Pm', <- Pm. apply Permutation_app_comm. }
  assert (HC : same_content Z Z') by (apply (holds_unique (set_runs X ++ set_runs Y ++ set_runs W)); assumption).
  split; [exact HC|]. apply same_content_tracks; try assumption.
  eapply same_keys_trans; [apply same_keys_sym; exact K2|].
  eapply same_keys_trans; [apply same_keys_sym; exact K1|exact K4].
Qed.

(** join raises when the names or the sizes of the tags differ *)
Lemma reorder_differs (X : sigset) t : wf_set X -> tags_valid t -> ~ same_keys (ss_tags X) t ->
  reorder kone X (TObj t) = Err AssertionError.
Proof.
  intros HX Hv Hne. pose proof (ws_tags X HX) as HvX. unfold reorder.
  destruct (tags_eqb (ss_tags X) t) eqn:E.
  { exfalso. apply Hne. intros k n. pose proof (tags_eqb_dget _ _ HvX Hv E k) as Ek.
    split; intros (l & Hl & En); exists l; (split; [|exact En]);
      rewrite (reads_dget _ _ _ HvX), (reads_dget _ _ _ Hv) in *; congruence. }
  clear E. set (new := arg_dict (TObj t)).
  destruct (seteqb String.eqb (dkeys new) (dkeys (t_dict (ss_tags X)))) eqn:Ek; [|reflexivity]. simpl bind at 1.
  rewrite (seteqb_iff _ string_eqb_iff) in Ek.
  match goal with |- context [bind (mapM ?f new) _] => set (F := f) end.
  assert (Er : mapM F new = Err AssertionError \/ exists r, mapM F new = Ok r).
  { assert (Hall : forall kv, In kv new -> F kv = Err AssertionError \/ F kv = Ok tt).
    { intros [k v] Hkv. unfold new in Hkv. simpl in Hkv. apply in_map_iff in Hkv as ([k1 l1] & E & _). injection E as <- <-.
      unfold F. simpl. destruct (dget k1 (t_dict (ss_tags X))); [|left; reflexivity].
      unfold check. destruct (_ =? _); auto. }
    clear - Hall. induction new as [|a l IH]; [right; eexists; reflexivity|].
    destruct (Hall a (or_introl eq_refl)) as [Ea|Ea]; simpl; rewrite Ea; [left; reflexivity|].
    destruct IH as [E|[r E]]; [intros; apply Hall; right; assumption| |]; rewrite E; simpl; eauto. }
  destruct Er as [Er|[r Er]]; [rewrite Er; reflexivity|exfalso]. apply Hne.
  assert (Hlen : forall k l, reads t k l -> exists l0, reads (ss_tags X) k l0 /\ length l0 = length l).
  { intros k l Hl. assert (Hin : In (k, RTuple (map Z.of_nat l)) new).
    { unfold new. simpl. apply in_map_iff. exists (k, l). auto. }
    destruct (mapM_In _ _ _ _ Er Hin) as (u & _ & Hu). unfold F in Hu. simpl in Hu. apply check_ok in Hu.
    destruct (dget k (t_dict (ss_tags X))) as [l0|] eqn:E; [|discriminate]. exists l0.
    split; [apply reads_dget; assumption|]. apply Nat.eqb_eq in Hu. rewrite map_length in Hu. congruence. }
  intros k n. split.
  - intros (l & Hl & <-). assert (Hk : In k (dkeys new)).
    { apply Ek. unfold dkeys. apply in_map_iff. exists (k, l). auto. }
    unfold new in Hk. rewrite dkeys_obj in Hk. apply in_map_iff in Hk as ([k1 l1] & E1 & Hk). simpl in E1. subst k1.
    exists l1. split; [exact Hk|]. destruct (Hlen _ _ Hk) as (l0 & Hl0 & El).
    apply (reads_dget _ _ _ HvX) in Hl0, Hl. congruence.
  - intros (l & Hl & <-). destruct (Hlen _ _ Hl) as (l0 & Hl0 & El). exists l0. auto.
Qed.

Lemma reorder_self (X : sigset) : wf_set X -> reorder kone X (TObj (ss_tags X)) = Ok X.
Proof.
  intros HX. unfold reorder.
  assert (E : tags_eqb (ss_tags X) (ss_tags X) = true).
  { pose proof (ws_tags X HX) as Hv. unfold tags_eqb. rewrite !andb_true_iff, !dict_subb_iff by apply Hv.
    split; [split; auto|]. unfold t_indices. destruct (dget _ _); simpl; [|apply Nat.eqb_refl].
    destruct (list_eq_dec Nat.eq_dec l l); congruence. }
  rewrite E. reflexivity.
Qed.

Theorem join_differs (X Y : sigset) : wf_set X -> wf_set Y -> ~ same_keys (ss_tags X) (ss_tags Y) ->
  join kone X [ASet Y] = Err AssertionError.
Proof.
  intros HX HY Hne. unfold join, set_new. simpl. rewrite reorder_self by exact HX. simpl.
  rewrite reorder_differs; [reflexivity|exact HY|apply (ws_tags X HX)|].
  intros H. apply Hne, same_keys_sym, H.
Qed.
End Join.
