(** Inventories that cannot be packed. *)
From Coq Require Import QArith Qcanon Lqa.
From Verif Require Import Base BaseLemmas SliceLemmas Arith OrdLaws QcLemmas TagsModel SpecTags TagsProofs
  SyncModel SetModel SpecSet SetProofs SpecSelect TrackProofs SelectProofs OrderProofs JoinProofs JoinOk
  SpecTime ExtractProofs ExtractSet ExcludeProofs SpecConsec GroupProofs SpecMerge MergeProofs MergeSet MergeRuns MergeOk ConsecProofs ConsecSet ConsecTime ConsecOk
  GlobModel InvModel SpecInv GlobProofs InvProofs PackProofs SpecPack PackAll PackOrder.
Open Scope nat_scope.

(** ** two elements of a list, in this order *)
Definition pair_in {B} (l : list B) (x y : B) : Prop := exists a b c, l = a ++ x :: b ++ y :: c.
Lemma pair_of_nth {B} (l : list B) i j x y : i < j -> nth_error l i = Some x -> nth_error l j = Some y -> pair_in l x y.
Proof.
  intros Hij Hi Hj. destruct (nth_error_split l i Hi) as (a & r & -> & <-). rewrite nth_error_app2 in Hj by lia.
  destruct (j - length a) as [|m] eqn:E; [lia|]. cbn [nth_error] in Hj. destruct (nth_error_split r m Hj) as (b & c & -> & _). exists a, b, c. reflexivity.
Qed.
Lemma kept_app {B C} (P : B -> Prop) (R : B -> C -> Prop) a b l' : kept P R (a ++ b) l' -> exists a' b', l' = a' ++ b' /\ kept P R a a' /\ kept P R b b'.
Proof.
  revert l'. induction a as [|x a IH]; intros l' H; [exists [], l'; split; [reflexivity|]; split; [constructor|exact H]|].
  cbn [app] in H. inversion H as [|x0 l0 l0' Hn Hk|x0 y l0 l0' HP HR Hk]; subst.
  - destruct (IH _ Hk) as (a' & b' & -> & H1 & H2). exists a', b'. split; [reflexivity|]. split; [apply kp_drop; assumption|exact H2].
  - destruct (IH _ Hk) as (a' & b' & -> & H1 & H2). exists (y :: a'), b'. split; [reflexivity|]. split; [apply kp_keep; assumption|exact H2].
Qed.
Lemma kept_cons_in {B C} (P : B -> Prop) (R : B -> C -> Prop) x b l' : kept P R (x :: b) l' -> P x -> exists y b', l' = y :: b' /\ R x y /\ kept P R b b'.
Proof. intros H HP. inversion H; subst; [contradiction|]. eauto. Qed.
Lemma kept_pair {B C} (P : B -> Prop) (R : B -> C -> Prop) l l' x y : kept P R l l' -> pair_in l x y -> P x -> P y ->
  exists x' y', pair_in l' x' y' /\ R x x' /\ R y y'.
Proof.
  intros H (a & b & c & ->) Px Py. destruct (kept_app _ _ _ _ _ H) as (a' & r & -> & _ & H1).
  destruct (kept_cons_in _ _ _ _ _ H1 Px) as (x' & r' & -> & Rx & H2). destruct (kept_app _ _ _ _ _ H2) as (b' & r2 & -> & _ & H3).
  destruct (kept_cons_in _ _ _ _ _ H3 Py) as (y' & c' & -> & Ry & _). exists x', y'. split; [exists a', b', c'; reflexivity|]. auto.
Qed.
Lemma Forall2_pair {B C} (R : B -> C -> Prop) l l' x y : Forall2 R l l' -> pair_in l x y -> exists x' y', pair_in l' x' y' /\ R x x' /\ R y y'.
Proof.
  intros H (a & b & c & ->). apply Forall2_app_inv_l in H as (a' & r & _ & H0 & ->). inversion H0 as [|x0 x' b0 r' Rx H1]; subst.
  apply Forall2_app_inv_l in H1 as (b' & r & _ & H2 & ->). inversion H2 as [|y0 y' b1 c' Ry H3]; subst. exists x', y'. split; [exists a', b', c'; reflexivity|]. auto.
Qed.
Lemma FOP_pair {B C} (R : C -> C -> Prop) (f : B -> list C) l x y u v : ForallOrdPairs R (concat (map f l)) -> pair_in l x y -> In u (f x) -> In v (f y) -> R u v.
Proof.
  intros H (a & b & c & ->) Hu Hv. rewrite map_app, concat_app in H. cbn [map concat] in H. rewrite map_app, concat_app in H. cbn [map concat] in H.
  apply in_split in Hu as (u1 & u2 & Eu). apply in_split in Hv as (v1 & v2 & Ev). rewrite Eu, Ev in H. clear Eu Ev.
  revert H. generalize (concat (map f a)) (concat (map f b)) (concat (map f c)). intros A' B' C' H.
  induction A' as [|z A' IH]; [|inversion H; subst; auto]. cbn [app] in H.
  induction u1 as [|z u1 IH]; [|inversion H; subst; auto]. cbn [app] in H. inversion H as [|z l' HF _]; subst.
  rewrite Forall_forall in HF. apply HF. rewrite !in_app_iff. cbn [In]. tauto.
Qed.

Lemma Qc_between (a b : Qc) : (a < b)%Qc -> exists t, (a < t)%Qc /\ (t < b)%Qc.
Proof. intros H. exists ((a + b) * Q2Qc (1 # 2))%Qc. unfold Qclt in *. rewrite !this_mul, !this_add, !this_Q. split; lra. Qed.
Lemma reads_fun (t : tags) k l l' : tags_valid t -> reads t k l -> reads t k l' -> l = l'.
Proof. intros Hv H H'. apply (In_dget _ _ _ (tv_unique t Hv)) in H, H'. congruence. Qed.

Section PackRaise.
Context {V K : Type} (kone : K).
Notation sync := (sync QA V K).
Notation sigset := (@sigset QA V K).
Notation seg := (@seg QA V K).

(** the time [t] is inside the run *)
Definition inside (t : Qc) (s : sync) : Prop := (s_start s < t)%Qc /\ (t < last_time s)%Qc.
Definition apart (s s' : sync) : Prop := nleb QA (last_time s) (s_start s') = true \/ nleb QA (last_time s') (s_start s) = true.
Lemma apart_inside t (s s' : sync) : apart s s' -> inside t s -> inside t s' -> False.
Proof.
  intros [H|H] [A1 A2] [B1 B2]; apply Qcleb_le in H.
  - apply (Qclt_not_le _ _ A2). apply Qcle_trans with (s_start s'); [exact H|apply Qclt_le_weak, B1].
  - apply (Qclt_not_le _ _ B2). apply Qcle_trans with (s_start s); [exact H|apply Qclt_le_weak, A1].
Qed.
Lemma good_apart (X : sigset) s s' : good X -> In s (ss_signals X) -> In s' (ss_signals X) -> s <> s' -> apart s s'.
Proof.
  intros G Hs Hs' Hne. pose proof (good_disjoint X G) as D. apply In_nth_error in Hs as [i Hi]. apply In_nth_error in Hs' as [j Hj].
  destruct (Nat.lt_trichotomy i j) as [L|[<-|L]]; [exact (FOP_nth _ _ _ _ _ _ D L Hi Hj)|congruence|].
  destruct (FOP_nth _ _ _ _ _ _ D L Hj Hi); [right|left]; assumption.
Qed.
Lemma straddles_inside (X : sigset) s k p (g : seg) t : good X -> In s (ss_signals X) -> reads_seg (ss_tags X) s k p g -> straddles g t -> inside t s.
Proof.
  intros G Hs (l & c & Hl & Hp & Hg) [S1 S2]. destruct (seg_last s c g (ws_sync X (gd_wf X G) s Hs) Hg) as [E|E].
  - destruct Hg as (_ & _ & _ & Gs). split; [rewrite <- Gs|rewrite <- E]; assumption.
  - destruct (gd_runs X G s Hs). lia.
Qed.

(** ** a tag recorded twice at the same time *)
Lemma join_apart (l : list sigset) Z X X' s s' : (forall X, In X l -> good X) -> join_list kone l = Ok Z -> pair_in l X X' ->
  In s (ss_signals X) -> In s' (ss_signals X') -> apart s s'.
Proof.
  intros G H HP Hs Hs'. destruct (join_good kone l Z G H) as [GZ _].
  destruct (join_list_holds QA_ord kone l Z (fun X HX => gd_wf X (G X HX)) H) as (_ & (runs & R1 & R2) & _).
  assert (S1 : Forall2 same_shape (ss_signals Z) (map snd runs)).
  { clear - R2. induction R2 as [|[t s] s' runs sigs H _ IH]; simpl; constructor; [|exact IH]. destruct H as (H1 & H2 & H3 & _). unfold same_shape. cbn in *. split; [congruence|]. split; congruence. }
  pose proof (shape_disjoint _ _ S1 (good_disjoint Z GZ)) as D.
  assert (Q : Permutation (map snd runs) (concat (map (@ss_signals QA V K) l))).
  { rewrite <- (Permutation_map snd R1). rewrite concat_map, map_map. erewrite map_ext; [reflexivity|]. intros X0. unfold set_runs. rewrite map_map. simpl. apply map_id. }
  apply (disjoint_perm _ _ Q) in D. exact (FOP_pair _ _ _ _ _ _ _ D HP Hs Hs').
Qed.

Lemma channels_pair (inv l : list sigset) ks X X' k p g p' g' : (forall X, In X inv -> good X) -> inv_select_channels kone inv ks = Ok l ->
  pair_in inv X X' -> In k ks -> records X k p g -> records X' k p' g' -> exists W W', pair_in l W W' /\ records W k p g /\ records W' k p' g'.
Proof.
  intros G H HP Hk Hg Hg'. pose proof H as H0. apply inv_select_channels_spec in H; [|intros Z HZ; apply (G Z HZ)|intros Z HZ; apply (G Z HZ)].
  assert (Hin : In X inv /\ In X' inv).
  { destruct HP as (a & b & c & ->). split; apply in_or_app; right; [left; reflexivity|right; apply in_or_app; right; left; reflexivity]. }
  assert (Hc : forall (Y : sigset) p g, records Y k p g -> has_channel (fun k => In k ks) Y).
  { intros Y p0 g0 (s & Hs & lc & c & Hl & Hp & _). exists k, lc, c. split; [exact Hk|]. split; [exact Hl|]. eapply nth_error_In; eauto. }
  destruct (kept_pair _ _ _ _ _ _ H HP (Hc X p g Hg) (Hc X' p' g' Hg')) as (W & W' & HW & R & R').
  assert (T : forall Y Z p g, In Y inv -> In Z l -> reduced (fun k => In k ks) Y Z -> records Y k p g -> records Z k p g).
  { intros Y Z p0 g0 HY HZ HR Hr. destruct (inv_channels kone inv l ks G H0 Z HZ) as (_ & _ & _ & GZ & _).
    destruct HR as (cs & _ & Hcs & _ & HS & HT). pose proof Hr as (s & Hs & lc & c & Hl & Hp & _). apply records_tracks in Hr as (gs & Tr & Hi); [|apply (G Y HY)].
    apply records_tracks; [apply GZ|]. exists gs. split; [|exact Hi]. apply (HT k (length lc) p0 gs); [|exact Tr].
    apply HS. exists lc. split; [exact Hl|]. split; [reflexivity|]. intros i Hi0. apply Hcs. exists k, lc. auto. }
  assert (HWl : In W l /\ In W' l).
  { destruct HW as (a & b & c & ->). split; apply in_or_app; right; [left; reflexivity|right; apply in_or_app; right; left; reflexivity]. }
  exists W, W'. split; [exact HW|]. split; [apply (T X W)|apply (T X' W')]; tauto.
Qed.

Lemma join_merge_twice (inv : list sigset) Y X X' k p g p' g' t : (forall X, In X inv -> good X) -> join_merge kone inv = Ok Y ->
  pair_in inv X X' -> records X k p g -> records X' k p' g' -> straddles g t -> straddles g' t -> False.
Proof.
  intros G H HP Hg Hg' S S'. unfold join_merge in H. destruct inv as [|X0 inv0]; [destruct HP as ([|? ?] & b & c & E); discriminate E|]. set (inv := X0 :: inv0) in *.
  apply bind_ok in H as (content & Hc & _).
  assert (HX : In X inv) by (destruct HP as (a & b & c & ->); apply in_or_app; right; left; reflexivity).
  assert (Hk : In k (inv_tags inv)) by (apply inv_tags_In; destruct Hg as (s & _ & l & c & Hl & _); eauto).
  destruct (group_of inv k Hk) as (ks & Hks & Kin). destruct (mapM_In _ _ _ _ Hc Hks) as (Z & HZ & E). apply bind_ok in E as (l & E1 & E2).
  assert (Gl : forall X, In X l -> good X) by (intros W HW; destruct (inv_channels kone inv l ks G E1 W HW) as (_ & _ & _ & GX & _); exact GX).
  destruct (channels_pair inv l ks X X' k p g p' g' G E1 HP Kin Hg Hg') as (W & W' & HW & (s & Hs & Rs) & (s' & Hs' & Rs')).
  assert (HWl : In W l /\ In W' l).
  { destruct HW as (a & b & c & ->). split; apply in_or_app; right; [left; reflexivity|right; apply in_or_app; right; left; reflexivity]. }
  apply (apart_inside t s s'); [exact (join_apart l Z W W' s s' Gl E2 HW Hs Hs')| |].
  - apply (straddles_inside W s k p g); try assumption. apply Gl, HWl.
  - apply (straddles_inside W' s' k p' g'); try assumption. apply Gl, HWl.
Qed.

Lemma rate_pair (inv inv' : list sigset) f X X' k p g p' g' : (forall X, In X inv -> good X) -> inv_select_runs kone inv (map (rate_mask f) inv) = Ok inv' ->
  pair_in inv X X' -> records X k p g -> g_rate g = f -> records X' k p' g' -> g_rate g' = f ->
  exists W W', pair_in inv' W W' /\ records W k p g /\ records W' k p' g'.
Proof.
  intros G H HP Hg Hr Hg' Hr'. apply inv_select_runs_spec in H as (_ & L & F & Hk). rewrite combine_map_r in F.
  assert (Hin : In X inv /\ In X' inv).
  { destruct HP as (a & b & c & ->). split; apply in_or_app; right; [left; reflexivity|right; apply in_or_app; right; left; reflexivity]. }
  assert (HP' : pair_in (map (fun x => (x, rate_mask f x)) inv) (X, rate_mask f X) (X', rate_mask f X')).
  { destruct HP as (a & b & c & ->). rewrite map_app. cbn [map]. rewrite map_app. cbn [map]. eexists _, _, _. reflexivity. }
  destruct (Forall2_pair _ _ _ _ _ F HP') as (W & W' & HW & E & E'). cbn [fst snd] in E, E'.
  assert (T : forall Y Z p g, In Y inv -> select_runs kone Y (rate_mask f Y) = Ok Z -> records Y k p g -> g_rate g = f -> records Z k p g).
  { intros Y Z p0 g0 HY EZ (s & Hs & l & c & Hl & Hp & Hs0) Hf. destruct (select_rate kone Y Z f (gd_wf Y (G Y HY)) EZ) as (_ & D & S).
    exists s. split; [apply S; split; [exact Hs|]; destruct Hs0 as (_ & _ & E0 & _); congruence|]. exists l, c. unfold reads in *. rewrite D. auto. }
  pose proof (T X W p g (proj1 Hin) E Hg Hr) as RW. pose proof (T X' W' p' g' (proj2 Hin) E' Hg' Hr') as RW'.
  destruct (kept_pair _ _ _ _ W W' Hk HW) as (U & U' & HU & -> & ->).
  - destruct RW as (s & Hs & _). intros E0. rewrite E0 in Hs. destruct Hs.
  - destruct RW' as (s & Hs & _). intros E0. rewrite E0 in Hs. destruct Hs.
  - exists U, U'. auto.
Qed.

Theorem pack_twice (inv : list sigset) order Y X X' k p g p' g' t : (forall X, In X inv -> good X) -> pack_multi kone order inv = Ok Y ->
  pair_in inv X X' -> records X k p g -> records X' k p' g' -> g_rate g = g_rate g' -> In (g_rate g) order -> straddles g t -> straddles g' t -> False.
Proof.
  intros G H HP Hg Hg' Hr Ho S S'. unfold pack_multi in H. apply bind_ok in H as (sigs & H1 & _).
  destruct (mapM_In _ _ _ _ H1 Ho) as (M & HM & E). apply bind_ok in E as (i & E1 & E2).
  destruct (rate_pair inv i (g_rate g) X X' k p g p' g' G E1 HP Hg eq_refl Hg' (eq_sym Hr)) as (W & W' & HW & RW & RW').
  apply (join_merge_twice i M W W' k p g p' g' t); try assumption. intros Z HZ. apply (inv_rate kone inv i (g_rate g) G E1 Z HZ).
Qed.
Theorem pack_recorded_twice (inv : list sigset) order Y X X' k p g p' g' t : (forall X, In X inv -> good X) -> pack_multi kone order inv = Ok Y ->
  two_places inv X X' -> records X k p g -> records X' k p' g' -> g_rate g = g_rate g' -> In (g_rate g) order -> straddles g t -> straddles g' t -> False.
Proof.
  intros G H (a & b & Ha & Hb & Hab) Hg Hg' Hr Ho S S'. destruct (Nat.lt_gt_cases a b) as [L _]. destruct (L Hab) as [L'|L'].
  - exact (pack_twice inv order Y X X' k p g p' g' t G H (pair_of_nth _ _ _ _ _ L' Ha Hb) Hg Hg' Hr Ho S S').
  - rewrite Hr in Ho. exact (pack_twice inv order Y X' X k p' g' p g t G H (pair_of_nth _ _ _ _ _ L' Hb Ha) Hg' Hg (eq_sym Hr) Ho S' S).
Qed.

(** ** channels under two tags *)
Lemma seg_of_run (X : sigset) s k l c p : good X -> In s (ss_signals X) -> reads (ss_tags X) k l -> nth_error l p = Some c ->
  exists g, reads_seg (ss_tags X) s k p g /\ g_rate g = s_rate s /\ exists t, straddles g t.
Proof.
  intros G Hs Hl Hp. destruct (is_seg_exists s c) as [g Hg]; [apply (ws_sync X (gd_wf X G)), Hs| |].
  { rewrite (ws_chan X (gd_wf X G) s Hs). eapply (tv_range _ (ws_tags X (gd_wf X G))); [exact Hl|eapply nth_error_In; eauto]. }
  destruct (gd_runs X G s Hs) as [Hr Hn]. exists g. split; [exists l, c; auto|]. split; [apply Hg|].
  destruct (seg_last s c g (ws_sync X (gd_wf X G) s Hs) Hg) as [E|E]; [|lia]. destruct Hg as (_ & _ & _ & Gs).
  assert (L : (s_start s < last_time s)%Qc).
  { rewrite <- (sample_0 s) at 1. apply time_mono_lt; [exact Hr|lia]. }
  destruct (Qc_between _ _ L) as (t & T1 & T2). exists t. split; [rewrite Gs|rewrite E]; assumption.
Qed.
Lemma channels_keep_all (inv l : list sigset) ks X k lk p g : (forall X, In X inv -> good X) -> inv_select_channels kone inv ks = Ok l ->
  In X inv -> reads (ss_tags X) k lk -> (forall i, In i lk -> exists u lu, In u ks /\ reads (ss_tags X) u lu /\ In i lu) -> records X k p g ->
  exists W, In W l /\ records W k p g.
Proof.
  intros G H HX Hlk Hc Hg. pose proof H as H0. apply inv_select_channels_spec in H; [|intros Z HZ; apply (G Z HZ)|intros Z HZ; apply (G Z HZ)].
  pose proof Hg as (s & Hs & lc & c & Hl & Hp & _). assert (lc = lk) as -> by (exact (reads_fun _ _ _ _ (ws_tags X (gd_wf X (G X HX))) Hl Hlk)).
  destruct (kept_In_l _ _ _ _ X H HX) as (W & HW & HR).
  { destruct (Hc c (nth_error_In _ _ Hp)) as (u & lu & H1 & H2 & H3). exists u, lu, c. auto. }
  exists W. split; [exact HW|]. destruct (inv_channels kone inv l ks G H0 W HW) as (_ & _ & _ & GW & _).
  destruct HR as (cs & _ & Hcs & _ & HS & HT). apply records_tracks in Hg as (gs & T & Hin); [|apply (G X HX)].
  apply records_tracks; [apply GW|]. exists gs. split; [|exact Hin]. apply (HT k (length lk) p gs); [|exact T].
  apply HS. exists lk. split; [exact Hl|]. split; [reflexivity|]. intros i Hi. apply Hcs. destruct (Hc i Hi) as (u & lu & H1 & H2 & H3). exists u, lu. auto.
Qed.
Lemma pair_concat {B} (L : list (list B)) x y a b : pair_in L x y -> In a x -> In b y -> pair_in (concat L) a b.
Proof.
  intros (u & v & w & ->) Ha Hb. apply in_split in Ha as (a1 & a2 & ->). apply in_split in Hb as (b1 & b2 & ->).
  rewrite concat_app. cbn [concat]. rewrite concat_app. cbn [concat]. exists (concat u ++ a1), (a2 ++ concat v ++ b1), (b2 ++ concat w).
  rewrite <- !app_assoc. cbn [app]. rewrite <- ?app_assoc. reflexivity.
Qed.
Lemma pair_of_In {B} (l : list B) x y : In x l -> In y l -> x <> y -> pair_in l x y \/ pair_in l y x.
Proof.
  intros Hx Hy Hne. apply In_nth_error in Hx as [i Hi]. apply In_nth_error in Hy as [j Hj]. destruct (Nat.lt_trichotomy i j) as [L|[<-|L]]; [|congruence|].
  - left. exact (pair_of_nth _ _ _ _ _ L Hi Hj).
  - right. exact (pair_of_nth _ _ _ _ _ L Hj Hi).
Qed.
Theorem pack_aliased (inv : list sigset) torder order Y X t u lt lu s : (forall X, In X inv -> good X) -> pack kone false torder order inv = Ok Y ->
  In X inv -> In t torder -> In u torder -> t <> u -> reads (ss_tags X) t lt -> reads (ss_tags X) u lu -> lt <> [] -> incl lt lu ->
  In s (ss_signals X) -> In (s_rate s) order -> False.
Proof.
  intros G H HX Ht Hu Hne Hlt Hlu Hnil Hin Hs Ho. unfold pack in H. apply bind_ok in H as (i & Hi & H).
  pose proof (fun Z HZ => proj1 (split_good kone inv i torder G Hi Z HZ)) as Gi. unfold split_single in Hi. apply bind_ok in Hi as (L & HL & Hi). injection Hi as <-. apply mapM_Forall2 in HL.
  destruct lt as [|c lt]; [congruence|]. destruct (seg_of_run X s t (c :: lt) c 0 (G X HX) Hs Hlt eq_refl) as (g & Hg & Hr & tm & St).
  assert (Rg : records X t 0 g) by (exists s; auto).
  assert (K1 : forall x, inv_select_channels kone inv [t] = Ok x -> exists W, In W x /\ records W t 0 g).
  { intros x Hx. apply (channels_keep kone inv x [t] X t 0 g G Hx HX (or_introl eq_refl) Rg). }
  assert (K2 : forall x, inv_select_channels kone inv [u] = Ok x -> exists W, In W x /\ records W t 0 g).
  { intros x Hx. apply (channels_keep_all inv x [u] X t (c :: lt) 0 g G Hx HX Hlt); [|exact Rg]. intros j Hj. exists u, lu. split; [left; reflexivity|]. auto. }
  rewrite <- Hr in Ho. destruct (pair_of_In torder t u Ht Hu Hne) as [HP|HP]; destruct (Forall2_pair _ _ _ _ _ HL HP) as (x & y & Hxy & Ex & Ey).
  - destruct (K1 x Ex) as (W & HW & RW), (K2 y Ey) as (W' & HW' & RW').
    exact (pack_twice (concat L) order Y W W' t 0 g 0 g tm Gi H (pair_concat _ _ _ _ _ Hxy HW HW') RW RW' eq_refl Ho St St).
  - destruct (K2 x Ex) as (W & HW & RW), (K1 y Ey) as (W' & HW' & RW').
    exact (pack_twice (concat L) order Y W W' t 0 g 0 g tm Gi H (pair_concat _ _ _ _ _ Hxy HW HW') RW RW' eq_refl Ho St St).
Qed.

(** ** a tag over channels that other members hold under other tags only *)
Lemma has_tag_iff (X : sigset) t : has_tag t X = true <-> exists n, tag_size X t n.
Proof.
  unfold has_tag. rewrite dmem_In. unfold dkeys. rewrite in_map_iff. split.
  - intros ([k l] & E & Hl). cbn in E. subst k. exists (length l), l. auto.
  - intros (n & l & Hl & _). exists (t, l). auto.
Qed.
Lemma join_merge_torn (inv : list sigset) Y X k lk p g t0 : (forall X, In X inv -> good X) -> join_merge kone inv = Ok Y -> In X inv -> reads (ss_tags X) k lk ->
  records X k p g -> (forall i, In i lk -> exists u lu, carriers inv u = carriers inv t0 /\ reads (ss_tags X) u lu /\ In i lu) -> carriers inv k = carriers inv t0.
Proof.
  intros G H HX Hlk Hg Hc. destruct (list_eq_dec bool_dec (carriers inv k) (carriers inv t0)) as [E|Hne]; [exact E|exfalso].
  unfold join_merge in H. destruct inv as [|X0 inv0]; [destruct HX|]. set (inv := X0 :: inv0) in *. apply bind_ok in H as (content & Hm & H).
  assert (Hk : In k (inv_tags inv)) by (apply inv_tags_In; eauto).
  pose proof Hg as (s & Hs & lc & c & Hl & Hp & _). assert (lc = lk) as -> by (exact (reads_fun _ _ _ _ (ws_tags X (gd_wf X (G X HX))) Hl Hlk)).
  destruct (Hc c (nth_error_In _ _ Hp)) as (u & lu & Cu & Ru & _). assert (Hu : In u (inv_tags inv)) by (apply inv_tags_In; eauto).
  destruct (group_of inv k Hk) as (ks & Hks & Kin).
  set (us := stable_sort str_ltb (filter (fun v => bools_eqb (carriers inv v) (carriers inv u)) (inv_tags inv))).
  assert (Hus : In us (tag_groups inv)) by (apply tag_groups_In; exists u; split; [exact Hu|]; split; [apply sort_perm|reflexivity]).
  assert (Uin : forall v, In v us <-> In v (inv_tags inv) /\ carriers inv v = carriers inv t0).
  { intros v. unfold us. rewrite sort_In, filter_In, bools_eqb_iff, Cu. reflexivity. }
  assert (Kus : ~ In k us) by (rewrite Uin; intros [_ E]; contradiction).
  apply In_nth_error in Hks as [a Ha]. apply In_nth_error in Hus as [b Hb].
  destruct (mapM_nth _ _ _ _ _ Hm Ha) as (Z & HZ & EZ). destruct (mapM_nth _ _ _ _ _ Hm Hb) as (Z' & HZ' & EZ').
  assert (Hab : a <> b) by (intros ->; congruence).
  assert (GC : forall Z, In Z content -> wf_set Z).
  { intros Z1 HZ1. destruct (mapM_In_r _ _ _ _ Hm HZ1) as (ks1 & _ & E). apply bind_ok in E as (l1 & E3 & E4). apply (join_good kone l1 Z1); [|exact E4].
    intros W1 HW1. destruct (inv_channels kone inv l1 ks1 G E3 W1 HW1) as (_ & _ & _ & GX & _). exact GX. }
  assert (KZ : exists l, reads (ss_tags Z) k l).
  { apply bind_ok in EZ as (l & E1 & E2). destruct (channels_keep kone inv l ks X k p g G E1 HX Kin Hg) as (W & HW & RW).
    destruct (join_keeps kone l Z W k p g) as (s1 & _ & l1 & c1 & Hl1 & _); [intros W1 HW1; destruct (inv_channels kone inv l _ G E1 W1 HW1) as (_ & _ & _ & GX & _); exact GX|exact E2|exact HW|exact RW|eauto]. }
  assert (KZ' : exists l, reads (ss_tags Z') k l).
  { apply bind_ok in EZ' as (l & E1 & E2). destruct (channels_keep_all inv l us X k lk p g G E1 HX Hlk) as (W & HW & RW); [|exact Hg|].
    { intros i Hi. destruct (Hc i Hi) as (v & lv & H1 & H2 & H3). exists v, lv. split; [apply Uin; split; [apply inv_tags_In; eauto|exact H1]|auto]. }
    destruct (join_keeps kone l Z' W k p g) as (s1 & _ & l1 & c1 & Hl1 & _); [intros W1 HW1; destruct (inv_channels kone inv l _ G E1 W1 HW1) as (_ & _ & _ & GX & _); exact GX|exact E2|exact HW|exact RW|eauto]. }
  destruct KZ as [l Rl], KZ' as [l' Rl'].
  destruct content as [|x [|y r]]; [destruct a; discriminate| |].
  - destruct a as [|[|a]]; [|discriminate|discriminate]. destruct b as [|[|b]]; [congruence|discriminate|discriminate].
  - apply (merge_all_tags kone (x :: y :: r) Y GC) in H as [H _]. exact (H a b Z Z' k l l' HZ HZ' Hab Rl Rl').
Qed.

Lemma rate_members (inv i : list sigset) f : (forall X, In X inv -> good X) -> inv_select_runs kone inv (map (rate_mask f) inv) = Ok i ->
  (forall W, In W i -> exists X, In X inv /\ has_rate f X /\ t_dict (ss_tags W) = t_dict (ss_tags X)) /\
  (forall X, In X inv -> has_rate f X -> exists W, In W i /\ t_dict (ss_tags W) = t_dict (ss_tags X) /\ forall s, In s (ss_signals W) <-> In s (ss_signals X) /\ s_rate s = f).
Proof.
  intros G H. apply inv_select_runs_spec in H as (_ & L & F & Hk). rewrite combine_map_r in F. split.
  - intros W HW. destruct (kept_In_r _ _ _ _ _ Hk HW) as (W' & HW' & Hne & ->). destruct (Forall2_In_r' _ _ _ _ F HW') as ([X r] & HX & E).
    apply in_map_iff in HX as (X' & E' & HX). injection E' as -> <-. cbn [fst snd] in E. destruct (select_rate kone X W f (gd_wf X (G X HX)) E) as (_ & D & S).
    exists X. split; [exact HX|]. split; [|exact D]. destruct (ss_signals W) as [|s l]; [congruence|]. exists s. apply S. left. reflexivity.
  - intros X HX (s & Hs & Hf). assert (HXr : In (X, rate_mask f X) (map (fun x => (x, rate_mask f x)) inv)) by (apply in_map_iff; exists X; auto).
    destruct (Forall2_In_l' _ _ _ _ F HXr) as (W & HW & E). cbn [fst snd] in E. destruct (select_rate kone X W f (gd_wf X (G X HX)) E) as (_ & D & S).
    destruct (kept_In_l _ _ _ _ W Hk HW) as (U & HU & ->); [intros E0; assert (In s (ss_signals W)) as Hw by (apply S; auto); rewrite E0 in Hw; destruct Hw|].
    exists U. auto.
Qed.
Lemma dict_size (X W : sigset) t : t_dict (ss_tags W) = t_dict (ss_tags X) -> (exists n, tag_size W t n) <-> (exists n, tag_size X t n).
Proof. intros E. unfold tag_size, reads. rewrite E. reflexivity. Qed.
Lemma carriers_same (inv i : list sigset) f t u : (forall X, In X inv -> good X) -> inv_select_runs kone inv (map (rate_mask f) inv) = Ok i ->
  same_members inv f t u <-> carriers i t = carriers i u.
Proof.
  intros G H. destruct (rate_members inv i f G H) as [M1 M2]. unfold carriers. rewrite map_ext_in_iff. split.
  - intros S W HW. destruct (M1 W HW) as (X & HX & Hr & D). specialize (S X HX Hr). apply eq_true_iff_eq. rewrite !has_tag_iff, !(dict_size X W _ D). exact S.
  - intros S X HX Hr. destruct (M2 X HX Hr) as (W & HW & D & _). rewrite <- !(dict_size X W _ D), <- !has_tag_iff, (S W HW). reflexivity.
Qed.
Theorem pack_torn (inv : list sigset) order Y X k lk t0 f : (forall X, In X inv -> good X) -> pack_multi kone order inv = Ok Y -> In f order ->
  In X inv -> has_rate f X -> reads (ss_tags X) k lk -> lk <> [] ->
  (forall i, In i lk -> exists u lu, same_members inv f u t0 /\ reads (ss_tags X) u lu /\ In i lu) -> same_members inv f k t0.
Proof.
  intros G H Hf HX Hr Hlk Hnil Hc. unfold pack_multi in H. apply bind_ok in H as (sigs & H1 & _).
  destruct (mapM_In _ _ _ _ H1 Hf) as (M & _ & E). apply bind_ok in E as (i & E1 & E2).
  assert (Gi : forall Z, In Z i -> good Z) by (intros Z HZ; apply (inv_rate kone inv i f G E1 Z HZ)).
  destruct (proj2 (rate_members inv i f G E1) X HX Hr) as (W & HW & D & S). apply (carriers_same inv i f k t0 G E1).
  destruct Hr as (s & Hs & Hsf). assert (HsW : In s (ss_signals W)) by (apply S; auto).
  assert (HlW : reads (ss_tags W) k lk) by (unfold reads in *; rewrite D; exact Hlk).
  destruct lk as [|c lk]; [congruence|]. destruct (seg_of_run W s k (c :: lk) c 0 (Gi W HW) HsW HlW eq_refl) as (g & Hg & _).
  apply (join_merge_torn i M W k (c :: lk) 0 g t0 Gi E2 HW HlW); [exists s; auto|]. intros j Hj. destruct (Hc j Hj) as (u & lu & H2 & H3 & H4).
  exists u, lu. split; [apply (carriers_same inv i f u t0 G E1), H2|]. split; [unfold reads in *; rewrite D; exact H3|exact H4].
Qed.

(** ** two rates at the same time *)
Lemma window_kept (inv : list sigset) order sigs f D F X k p g : (forall X, In X inv -> good X) ->
  mapM (fun f0 => i <- inv_select_runs kone inv (map (rate_mask f0) inv) ;; join_merge kone i) order = Ok sigs ->
  In f order -> (D < F)%Qc -> all_there inv f D F -> In X inv -> records X k p g -> g_rate g = f -> spans D F g ->
  exists M, In M (filter (fun s => negb (nb_runs s =? 0) && subsetb String.eqb (inv_tags inv) (dkeys (t_dict (ss_tags s)))) sigs) /\ windowed M k p f D F g.
Proof.
  intros G H1 Hf Hlt HA HX Hg Hr Hsp.
  destruct (mapM_In _ _ _ _ H1 Hf) as (M & HM & E). apply bind_ok in E as (i & E1 & E2).
  pose proof (inv_rate kone inv i f G E1) as IR. assert (Gi : forall X, In X i -> good X) by (intros W HW; apply (IR W HW)).
  assert (Htag : forall k, In k (inv_tags inv) -> exists X p g, In X i /\ records X k p g /\ g_rate g = f /\ spans D F g).
  { intros k1 Hk1. apply inv_tags_In in Hk1 as (X1 & l1 & HX1 & Hl1). destruct (HA X1 k1 (length l1) HX1) as (X2 & p2 & g2 & HX2 & R2 & Rf & Sp); [exists l1; auto|].
    destruct (rate_keeps kone inv i f X2 k1 p2 g2 G E1 HX2 R2 Rf) as (X3 & HX3 & R3). exists X3, p2, g2. auto. }
  destruct (rate_keeps kone inv i f X k p g G E1 HX Hg Hr) as (X' & HX' & Rg).
  assert (SM : windowed M k p f D F g).
  { apply (join_merge_window kone i M f D F X' k p g Gi E2 Hlt); auto. intros k1 Hk1. apply Htag. apply inv_tags_In in Hk1 as (X1 & l1 & HX1 & Hl1).
    destruct (IR X1 HX1) as (_ & _ & _ & [O1 _]). destruct (O1 k1 (length l1)) as (X2 & HX2 & l2 & Hl2 & _); [exists l1; auto|]. apply inv_tags_In. eauto. }
  exists M. split; [|exact SM]. apply filter_In. split; [exact HM|]. apply andb_true_iff. split.
  - apply has_runs_b. destruct SM as (g1 & (s & Hs & _) & _). intros E0. rewrite E0 in Hs. destruct Hs.
  - apply (subsetb_incl _ string_eqb_iff). intros k1 Hk1. destruct (Htag k1 Hk1) as (X1 & p1 & g1 & HX1 & R1 & _).
    destruct (join_merge_tag kone i M k1 X1 p1 g1 Gi E2 HX1 R1) as (n & l1 & Hl1 & _). unfold dkeys. apply in_map_iff. exists (k1, l1). auto.
Qed.
Lemma seg_le (g : seg) i j : pos (g_rate g) -> (seg_time g i <= seg_time g j)%Qc <-> i <= j.
Proof. intros H. unfold seg_time. rewrite (time_mono (g_start g) (g_rate g)) by exact H. lia. Qed.
Lemma fully_inside (J : sigset) k p f (g : seg) i j t : good J -> pos f -> windowed J k p f (seg_time g i) (seg_time g j) g -> g_rate g = f ->
  i < length (g_vals g) -> j < length (g_vals g) -> (seg_time g i < t)%Qc -> (t < seg_time g j)%Qc -> exists s, In s (ss_signals J) /\ s_rate s = f /\ inside t s.
Proof.
  intros G Hf (g' & (s & Hs & Rs) & Rf & Hw) Hr Hi Hj T1 T2. assert (L : (seg_time g i <= seg_time g j)%Qc) by (apply Qclt_le_weak; eapply Qclt_trans; eassumption).
  destruct (nth_error (g_vals g) i) as [vi|] eqn:Ei; [|apply nth_error_None in Ei; lia]. destruct (nth_error (g_vals g) j) as [vj|] eqn:Ej; [|apply nth_error_None in Ej; lia].
  destruct (Hw i vi Ei (Qcle_refl _) L) as (m & Hm & Em). destruct (Hw j vj Ej L (Qcle_refl _)) as (m' & Hm' & Em').
  assert (Hp : pos (g_rate g')) by (rewrite Rf; exact Hf). apply nth_error_Some_lt in Hm, Hm'.
  exists s. split; [exact Hs|]. split; [destruct Rs as (l & c & _ & _ & _ & _ & E & _); congruence|]. apply (straddles_inside J s k p g' t G Hs Rs). split.
  - apply Qcle_lt_trans with (seg_time g' 0); [|apply Qcle_lt_trans with (seg_time g i); [rewrite <- Em; apply seg_le; [exact Hp|lia]|exact T1]].
    unfold seg_time. replace (ZtoQc (Z.of_nat 0)) with (Q2Qc 0) by reflexivity. unfold Qcdiv. rewrite Qcmult_0_l, Qcplus_0_r. apply Qcle_refl.
  - apply Qclt_le_trans with (seg_time g j); [exact T2|]. rewrite <- Em'. apply seg_le; [exact Hp|lia].
Qed.
Lemma self_spans (g : seg) i j : pos (g_rate g) -> i < length (g_vals g) -> j < length (g_vals g) -> spans (seg_time g i) (seg_time g j) g.
Proof.
  intros Hp Hi Hj. split.
  - apply Qcle_trans with (seg_time g 0); [|apply seg_le; [exact Hp|lia]]. unfold seg_time. replace (ZtoQc (Z.of_nat 0)) with (Q2Qc 0) by reflexivity.
    unfold Qcdiv. rewrite Qcmult_0_l, Qcplus_0_r. apply Qcle_refl.
  - apply seg_le; [exact Hp|lia].
Qed.
Theorem pack_two_rates (inv : list sigset) order Y f f' t : (forall X, In X inv -> good X) -> pack_multi kone order inv = Ok Y ->
  In f order -> In f' order -> f <> f' -> fully_recorded inv f t -> fully_recorded inv f' t -> False.
Proof.
  intros G H Hf Hf' Hne A A'. unfold pack_multi in H. apply bind_ok in H as (sigs & H1 & H2). pose proof (pack_sigs kone inv order sigs G H1) as S.
  set (sel := filter _ sigs) in H2.
  assert (Q : forall f, In f order -> fully_recorded inv f t -> exists M, In M sel /\ exists s, In s (ss_signals M) /\ s_rate s = f /\ inside t s).
  { intros f0 Ho (X & k & p & g & i & j & HX & Hg & Hr & Hi & Hj & T1 & T2 & HA).
    assert (Hp : pos f0). { destruct Hg as (s & Hs & l & c & _ & _ & _ & _ & E & _). rewrite <- Hr, E. apply (gd_runs X (G X HX) s Hs). }
    assert (Hsp : spans (seg_time g i) (seg_time g j) g) by (apply self_spans; [rewrite Hr; exact Hp|exact Hi|exact Hj]).
    destruct (window_kept inv order sigs f0 (seg_time g i) (seg_time g j) X k p g G H1 Ho (Qclt_trans _ _ _ T1 T2) HA HX Hg Hr Hsp) as (M & HM & HW).
    exists M. split; [exact HM|]. apply (fully_inside M k p f0 g i j t); try assumption. apply filter_In in HM as [HM _]. apply (S M HM). }
  assert (Gs : forall Z, In Z sel -> good Z) by (intros Z HZ; apply filter_In in HZ as [HZ _]; apply (S Z HZ)).
  destruct (Q f Hf A) as (M & HM & s & Hs & Rs & Is). destruct (Q f' Hf' A') as (M' & HM' & s' & Hs' & Rs' & Is').
  clearbody sel. destruct sel as [|Z0 sel']; [destruct HM|]. apply bind_ok in H2 as (J & H2 & _). destruct (join_good kone (Z0 :: sel') J Gs H2) as [GJ _].
  destruct (join_list_holds QA_ord kone _ J (fun X HX => gd_wf X (Gs X HX)) H2) as (_ & HH & _).
  destruct (holds_run_l _ _ (ss_tags M) s HH) as (r & Hr & R1 & R2 & R3 & _); [apply in_set_runs; eauto|].
  destruct (holds_run_l _ _ (ss_tags M') s' HH) as (r' & Hr' & R1' & R2' & R3' & _); [apply in_set_runs; eauto|].
  assert (T : forall x y : sync, s_rate y = s_rate x -> s_start y = s_start x -> s_size y = s_size x -> inside t x -> inside t y).
  { intros x y E1 E2 E3 [I1 I2]. unfold inside. rewrite (shape_last x y) by (split; [exact E1|split; [exact E2|exact E3]]). rewrite E2. auto. }
  apply (apart_inside t r r'); [apply (good_apart J); try assumption; intros ->; congruence| |]; eapply T; eauto.
Qed.
End PackRaise.
