(** Time windows: proofs (exact arithmetic). *)
From Coq Require Import QArith Qcanon.
From Verif Require Import Base BaseLemmas SliceLemmas Arith OrdLaws QcLemmas TagsModel SpecTags TagsProofs
  SyncModel SetModel SpecSet SetProofs SpecSelect TrackProofs SelectProofs OrderProofs SpecTime.
Open Scope nat_scope.

Lemma skipn_skipn {B} x y (l : list B) : skipn x (skipn y l) = skipn (y + x) l.
Proof. revert l. induction y as [|y IH]; intros l; [reflexivity|]. destruct l; simpl; [destruct x; reflexivity|apply IH]. Qed.

(** ** Lists of timestamped samples *)
Section Stamps.
Context {T V : Type}.
Definition stamps (f : nat -> T) (k : nat) (l : list V) : list (T * V) :=
  map (fun iv => (f (fst iv), snd iv)) (combine (seq k (length l)) l).
Lemma stamps_app f k l1 l2 : stamps f k (l1 ++ l2) = stamps f k l1 ++ stamps f (k + length l1) l2.
Proof.
  revert k. induction l1 as [|x l1 IH]; intros k; simpl; [rewrite Nat.add_0_r; reflexivity|].
  unfold stamps in *. simpl. f_equal. rewrite IH. rewrite Nat.add_succ_r. reflexivity.
Qed.
Lemma stamps_ext f g k k' l : (forall i, i < length l -> f (k + i) = g (k' + i)) -> stamps f k l = stamps g k' l.
Proof.
  revert k k'. induction l as [|x l IH]; intros k k' H; [reflexivity|]. unfold stamps in *. simpl. f_equal.
  - f_equal. specialize (H 0). rewrite !Nat.add_0_r in H. apply H. simpl. lia.
  - apply IH. intros i Hi. specialize (H (S i)). rewrite !Nat.add_succ_r in H. apply H. simpl. lia.
Qed.
Lemma filter_stamps_all (P : T -> bool) f k (l : list V) b : (forall i, k <= i < k + length l -> P (f i) = b) ->
  filter (fun tv => P (fst tv)) (stamps f k l) = if b then stamps f k l else [].
Proof.
  revert k. induction l as [|x l IH]; intros k H; [destruct b; reflexivity|]. unfold stamps in *. simpl.
  simpl in H. rewrite (H k) by lia. rewrite IH by (intros i Hi; apply H; lia). destruct b; reflexivity.
Qed.
Lemma filter_stamps (P : T -> bool) f (l : list V) i n : i + n <= length l ->
  (forall j, j < length l -> P (f j) = true <-> i <= j < i + n) ->
  filter (fun tv => P (fst tv)) (stamps f 0 l) = stamps f i (firstn n (skipn i l)).
Proof.
  intros Hin H. rewrite <- (firstn_skipn i l) at 1. rewrite <- (firstn_skipn n (skipn i l)) at 1.
  rewrite !stamps_app, !filter_app. simpl.
  assert (E1 : length (firstn i l) = i) by (rewrite firstn_length; lia).
  assert (E2 : length (firstn n (skipn i l)) = n) by (rewrite firstn_length, skipn_length; lia).
  assert (E3 : length (skipn n (skipn i l)) = length l - i - n) by (rewrite !skipn_length; lia).
  rewrite (filter_stamps_all P f 0 _ false), (filter_stamps_all P f (length (firstn i l)) _ true),
    (filter_stamps_all P f _ (skipn n (skipn i l)) false); rewrite ?E1, ?E2, ?E3; simpl.
  - rewrite app_nil_r. reflexivity.
  - intros j Hj. apply not_true_iff_false. rewrite H by lia. lia.
  - intros j Hj. apply H; lia.
  - intros j Hj. apply not_true_iff_false. rewrite H by lia. lia.
Qed.
Lemma stamps_length f k (l : list V) : length (stamps f k l) = length l.
Proof. unfold stamps. rewrite map_length, combine_length, seq_length. lia. Qed.
Lemma stamps_vals f k (l : list V) : map snd (stamps f k l) = l.
Proof. revert k. induction l as [|x l IH]; intros k; [reflexivity|]. unfold stamps in *. simpl. f_equal. apply IH. Qed.
End Stamps.

Section Extract.
Context {V K : Type} (kone : K).
Notation sync := (sync QA V K).
Notation sigset := (@sigset QA V K).
Notation seg := (@seg QA V K).

Lemma seg_samples_stamps (g : seg) :
  seg_samples g = stamps (fun i => (g_start g + ZtoQc (Z.of_nat i) / g_rate g)%Qc) 0 (g_vals g).
Proof. reflexivity. Qed.

(** samples [i .. i+n-1] of every channel *)
Definition cut (s : sync) (i n : nat) : sync :=
  mkSync (map (fun e => firstn n (skipn i e)) (s_data s)) (s_cal s) (s_rate s) (sample_time s (Z.of_nat i)) n.

Lemma cut_ok (s : sync) i n : sync_ok s -> i + n <= s_size s -> sync_ok (cut s i n).
Proof.
  intros H Hin. split; simpl.
  - intros E. apply map_eq_nil in E. apply (so_chan _ H E).
  - rewrite map_length. apply so_cal, H.
  - intros c Hc. apply in_map_iff in Hc as (e & <- & He). rewrite firstn_length, skipn_length, (so_size _ H e He). lia.
Qed.

Lemma sync_new_cut (s : sync) i n : sync_ok s -> i + n <= s_size s ->
  sync_new kone (map (fun e => firstn n (skipn i e)) (s_data s)) (s_rate s) (sample_time s (Z.of_nat i)) (Some (s_cal s))
  = Ok (cut s i n).
Proof. intros H Hin. apply (sync_new_self kone (cut s i n)), cut_ok; assumption. Qed.

Lemma py_slice1_cut {B} (e : list B) i n : i + n <= length e ->
  py_slice1 e (Z.of_nat i) (Z.of_nat (i + n)) = firstn n (skipn i e).
Proof.
  intros H. unfold py_slice1, norm_index. destruct (Z.ltb_spec (Z.of_nat i) 0); [lia|].
  destruct (Z.ltb_spec (Z.of_nat (i + n)) 0); [lia|]. f_equal; [lia|f_equal; lia].
Qed.
Lemma py_slice1_empty {B} (e : list B) i j : (0 <= j <= i)%Z -> py_slice1 e i j = [].
Proof.
  intros H. unfold py_slice1, norm_index. destruct (Z.ltb_spec i 0); [lia|].
  destruct (Z.ltb_spec j 0); [lia|].
  replace (Z.to_nat (Z.min j (Z.of_nat (length e))) - Z.to_nat (Z.min i (Z.of_nat (length e)))) with 0 by lia. reflexivity.
Qed.

Lemma s_stop_pos (s : sync) : pos (s_rate s) -> s_stop s = Ok (last_time s).
Proof. intros Hr. apply s_stop_last. split; [apply pos_eqb, Hr|reflexivity]. Qed.

Lemma extract_i_cut (s : sync) i n : sync_ok s -> pos (s_rate s) -> i + n <= s_size s -> i < s_size s ->
  extract_i kone s (Some (Z.of_nat i)) (Some (Z.of_nat (i + n))) true false = Ok (cut s i n).
Proof.
  intros H Hr Hin Hi. unfold extract_i. rewrite (proj2 (check_ok _ _ tt)); [|simpl; rewrite !andb_true_iff, !Z.leb_le, Z.ltb_lt; lia].
  simpl. unfold index_to_time. destruct (Z.ltb_spec (Z.of_nat i) 0); [lia|]. simpl neqb. rewrite (pos_eqb _ Hr). simpl.
  rewrite <- (sync_new_cut s i n H Hin). f_equal. apply map_ext_in. intros e He. apply py_slice1_cut. rewrite (so_size _ H e He). exact Hin.
Qed.

Lemma pmax_max (a b : Qc) : (a <= @pmax QA a b)%Qc /\ (b <= @pmax QA a b)%Qc /\ (@pmax QA a b = a \/ @pmax QA a b = b).
Proof.
  unfold pmax. simpl. destruct (Qcltb a b) eqn:E.
  - apply Qcltb_lt in E. split; [apply Qclt_le_weak, E|]. split; [apply Qcle_refl|auto].
  - apply Qcltb_ge in E. split; [apply Qcle_refl|]. auto.
Qed.
Lemma pmin_min (a b : Qc) : (@pmin QA a b <= a)%Qc /\ (@pmin QA a b <= b)%Qc /\ (@pmin QA a b = a \/ @pmin QA a b = b).
Proof.
  unfold pmin. simpl. destruct (Qcltb b a) eqn:E.
  - apply Qcltb_lt in E. split; [apply Qclt_le_weak, E|]. split; [apply Qcle_refl|auto].
  - apply Qcltb_ge in E. split; [apply Qcle_refl|]. auto.
Qed.
Lemma pmax_le (a b t : Qc) : (@pmax QA a b <= t)%Qc <-> (a <= t)%Qc /\ (b <= t)%Qc.
Proof.
  destruct (pmax_max a b) as (H1 & H2 & H3). split.
  - intros H. split; [exact (Qcle_trans _ _ _ H1 H)|exact (Qcle_trans _ _ _ H2 H)].
  - intros [G1 G2]. destruct H3 as [->| ->]; assumption.
Qed.
Lemma pmin_ge (a b t : Qc) : (t <= @pmin QA a b)%Qc <-> (t <= a)%Qc /\ (t <= b)%Qc.
Proof.
  destruct (pmin_min a b) as (H1 & H2 & H3). split.
  - intros H. split; [exact (Qcle_trans _ _ _ H H1)|exact (Qcle_trans _ _ _ H H2)].
  - intros [G1 G2]. destruct H3 as [->| ->]; assumption.
Qed.
Lemma pmin_le (a b t : Qc) : (@pmin QA a b <= t)%Qc <-> (a <= t)%Qc \/ (b <= t)%Qc.
Proof.
  destruct (pmin_min a b) as (H1 & H2 & H3). split.
  - intros H. destruct H3 as [E|E]; rewrite E in H; auto.
  - intros [G|G]; [exact (Qcle_trans _ _ _ H1 G)|exact (Qcle_trans _ _ _ H2 G)].
Qed.
Lemma pmax_ge (a b t : Qc) : (t <= @pmax QA a b)%Qc <-> (t <= a)%Qc \/ (t <= b)%Qc.
Proof.
  destruct (pmax_max a b) as (H1 & H2 & H3). split.
  - intros H. destruct H3 as [E|E]; rewrite E in H; auto.
  - intros [G|G]; [exact (Qcle_trans _ _ _ G H1)|exact (Qcle_trans _ _ _ G H2)].
Qed.

Lemma within_iff a b t : within a b t = true <-> (a <= t)%Qc /\ (t <= b)%Qc.
Proof. unfold within. rewrite andb_true_iff, !Qcleb_le. reflexivity. Qed.

Lemma sample_mono (s : sync) i j : pos (s_rate s) -> (sample_time s i <= sample_time s j)%Qc <-> (i <= j)%Z.
Proof. intros H. apply time_mono, H. Qed.
Lemma sample_0 (s : sync) : sample_time s 0 = s_start s.
Proof. apply time_0. Qed.

(** the two index bounds of a window, whatever the window *)
Lemma extract_t_bounds (s : sync) a b : sync_ok s -> pos (s_rate s) -> 0 < s_size s ->
  exists i n, sync_extract_t kone s a b false = Ok (cut s i n) /\ i + n <= s_size s /\ i < s_size s /\
    forall j, j < s_size s ->
      (i <= j < i + n <->
       (* clipped bounds *)
       ((a <= sample_time s (Z.of_nat j))%Qc \/ j = s_size s - 1) /\
       ((sample_time s (Z.of_nat j) <= b)%Qc \/ j = 0)).
Proof.
  intros Hs Hr Hn.
  set (a' := @pmin QA (last_time s) (@pmax QA (s_start s) a)).
  set (b' := @pmin QA (last_time s) (@pmax QA (s_start s) b)).
  assert (Hlast : last_time s = sample_time s (Z.of_nat (s_size s - 1))).
  { unfold last_time. f_equal. lia. }
  assert (Ha : forall j, j < s_size s ->
     (a' <= sample_time s (Z.of_nat j))%Qc <-> ((a <= sample_time s (Z.of_nat j))%Qc \/ j = s_size s - 1)).
  { intros j Hj. unfold a'. rewrite pmin_le, pmax_le, Hlast, sample_mono by exact Hr. rewrite <- (sample_0 s), sample_mono by exact Hr.
    split; [intros [H|[_ H]]; [right; lia|auto]|intros [H| ->]; [right; split; [lia|exact H]|left; lia]]. }
  assert (Hb : forall j, j < s_size s ->
     (sample_time s (Z.of_nat j) <= b')%Qc <-> ((sample_time s (Z.of_nat j) <= b)%Qc \/ j = 0)).
  { intros j Hj. unfold b'. rewrite pmin_ge, pmax_ge, Hlast, sample_mono by exact Hr. rewrite <- (sample_0 s), sample_mono by exact Hr.
    split; [intros [_ [H|H]]; [right; lia|auto]|intros [H| ->]; split; try lia; auto]. }
  set (i0 := Qcceil ((a' - s_start s) * s_rate s)%Qc). set (i1 := Qcfloor ((b' - s_start s) * s_rate s)%Qc).
  assert (Hi0 : forall z, (i0 <= z)%Z <-> (a' <= sample_time s z)%Qc).
  { intros z. unfold i0, sample_time. simpl. rewrite Qcceil_le, time_le_iff by exact Hr. reflexivity. }
  assert (Hi1 : forall z, (z <= i1)%Z <-> (sample_time s z <= b')%Qc).
  { intros z. unfold i1, sample_time. simpl. rewrite Qcfloor_le, time_ge_iff by exact Hr. reflexivity. }
  assert (B1 : (0 <= i0)%Z).
  { destruct (Z_lt_ge_dec i0 0) as [E|]; [|lia]. assert (E' : (i0 <= -1)%Z) by lia. apply Hi0 in E'.
    unfold a' in E'. rewrite pmin_le, pmax_le, Hlast, sample_mono in E' by exact Hr. rewrite <- (sample_0 s), sample_mono in E' by exact Hr. lia. }
  assert (B2 : (i0 <= Z.of_nat (s_size s - 1))%Z).
  { apply Hi0, Ha; [lia|auto]. }
  assert (B3 : (0 <= i1)%Z).
  { apply Hi1. change 0%Z with (Z.of_nat 0). apply Hb; [lia|auto]. }
  assert (B4 : (i1 <= Z.of_nat (s_size s - 1))%Z).
  { destruct (Z_lt_ge_dec (Z.of_nat (s_size s - 1)) i1) as [E|]; [|lia].
    assert (E' : (Z.of_nat (s_size s) <= i1)%Z) by lia. apply Hi1 in E'. unfold b' in E'.
    rewrite pmin_ge, Hlast, sample_mono in E' by exact Hr. lia. }
  set (n := Z.to_nat (i1 + 1 - i0)).
  exists (Z.to_nat i0), n. split; [|split; [unfold n; lia|split; [lia|]]].
  - unfold sync_extract_t. rewrite (s_stop_pos s Hr). cbn [bind]. fold a' b'. unfold time_to_index. cbn [bind nceil nfloor QA nmul nsub].
    fold i0 i1. cbn [bind]. unfold extract_i. cbn [negb orb]. cbn [check bind].
    unfold index_to_time. destruct (Z.ltb_spec i0 0); [lia|]. simpl neqb. rewrite (pos_eqb _ Hr). cbn [bind].
    rewrite <- (sync_new_cut s (Z.to_nat i0) n Hs) by (unfold n; lia).
    rewrite Z2Nat.id by exact B1. f_equal. apply map_ext_in. intros e He.
    destruct (Z_le_gt_dec i0 i1).
    + replace i0 with (Z.of_nat (Z.to_nat i0)) at 1 by lia.
      replace (i1 + 1)%Z with (Z.of_nat (Z.to_nat i0 + n)) by (unfold n; lia).
      apply py_slice1_cut. rewrite (so_size _ Hs e He). unfold n; lia.
    + replace n with 0 by (unfold n; lia). apply py_slice1_empty. lia.
  - intros j Hj. rewrite <- (Ha j Hj), <- (Hb j Hj), <- Hi0, <- Hi1. unfold n. lia.
Qed.

(** ** samples [i .. i+n-1] are those selected by [P] *)
Definition iscut (P : Qc -> bool) (s : sync) (i n : nat) : Prop :=
  i + n <= s_size s /\ forall j, j < s_size s -> (i <= j < i + n <-> P (sample_time s (Z.of_nat j)) = true).

Lemma iscut_few P (s : sync) i n Q : iscut P s i n -> n <= 1 -> (forall t, Q t = true -> P t = true) ->
  exists i' n', iscut Q s i' n' /\ n' <= 1.
Proof.
  intros [H1 H2] Hn HQ. destruct (Nat.eq_dec n 0) as [->|].
  - exists 0, 0. split; [|lia]. split; [lia|]. intros j Hj. split; [lia|]. intros E. apply HQ, (H2 j Hj) in E. lia.
  - replace n with 1 in * by lia. destruct (Q (sample_time s (Z.of_nat i))) eqn:E.
    + exists i, 1. split; [|lia]. split; [lia|]. intros j Hj. split.
      * intros Hij. replace j with i by lia. exact E.
      * intros Hq. apply HQ, (H2 j Hj) in Hq. lia.
    + exists 0, 0. split; [|lia]. split; [lia|]. intros j Hj. split; [lia|]. intros Hq.
      pose proof (HQ _ Hq) as Hp. apply (H2 j Hj) in Hp. replace j with i in * by lia. congruence.
Qed.

Lemma iscut_unique P (s : sync) i n i' n' : iscut P s i n -> iscut P s i' n' -> n = n' /\ (n <> 0 -> i = i').
Proof.
  intros [H1 H2] [G1 G2]. assert (E : forall j, j < s_size s -> (i <= j < i + n <-> i' <= j < i' + n')).
  { intros j Hj. rewrite (H2 j Hj), (G2 j Hj). reflexivity. }
  destruct (Nat.eq_dec n 0) as [->|Hn].
  - split; [|congruence]. destruct (Nat.eq_dec n' 0) as [->|]; [reflexivity|]. specialize (E i'). lia.
  - destruct (Nat.eq_dec n' 0) as [->|]; [specialize (E i); lia|].
    pose proof (E i). pose proof (E i'). pose proof (E (i + n - 1)). pose proof (E (i' + n' - 1)). lia.
Qed.

Lemma iscut_ext P Q (s : sync) i n : (forall j, j < s_size s -> P (sample_time s (Z.of_nat j)) = Q (sample_time s (Z.of_nat j))) ->
  iscut P s i n -> iscut Q s i n.
Proof. intros H [H1 H2]. split; [exact H1|]. intros j Hj. rewrite <- (H j Hj). auto. Qed.

Lemma cut_time (s : sync) i n j : pos (s_rate s) -> sample_time (cut s i n) (Z.of_nat j) = sample_time s (Z.of_nat (i + j)).
Proof. intros H. unfold sample_time. simpl. rewrite time_shift by exact H. rewrite Nat2Z.inj_add. reflexivity. Qed.

Lemma cut_cut (s : sync) i n i' n' : pos (s_rate s) -> i' + n' <= n ->
  cut (cut s i n) i' n' = cut s (i + i') n'.
Proof.
  intros H Hn. unfold cut at 1 3. simpl s_cal. simpl s_rate. rewrite cut_time by exact H. f_equal.
  simpl s_data. rewrite map_map. apply map_ext. intros e. rewrite skipn_firstn_comm, skipn_skipn, firstn_firstn.
  f_equal. lia.
Qed.

Lemma iscut_cut P Q (s : sync) i n i' n' : pos (s_rate s) -> iscut P s i n -> iscut Q (cut s i n) i' n' ->
  iscut (fun t => P t && Q t) s (i + i') n'.
Proof.
  intros Hr [H1 H2] [G1 G2]. simpl in G1. split; [lia|]. intros j Hj. rewrite andb_true_iff. split.
  - intros Hij. split; [apply H2; lia|]. specialize (G2 (j - i)). rewrite cut_time in G2 by exact Hr.
    replace (i + (j - i)) with j in G2 by lia. apply G2; simpl; lia.
  - intros [Hp Hq]. apply (H2 j Hj) in Hp. specialize (G2 (j - i)). rewrite cut_time in G2 by exact Hr.
    replace (i + (j - i)) with j in G2 by lia. apply G2 in Hq; simpl; lia.
Qed.

Lemma cut_full (s : sync) : sync_ok s -> cut s 0 (s_size s) = s.
Proof.
  intros H. unfold cut. rewrite sample_0. destruct s as [d c r st n]. simpl in *. f_equal.
  rewrite <- (map_id d) at 2. apply map_ext_in. intros e He. pose proof (so_size _ H e He) as E. simpl in E. rewrite <- E. apply firstn_all.
Qed.

(** ** what the channels of a cut hold *)
Definition cutseg (g : seg) (i n : nat) : seg :=
  mkSeg (g_rate g) (g_start g + ZtoQc (Z.of_nat i) / g_rate g)%Qc (firstn n (skipn i (g_vals g))) (g_cal g).
Lemma cut_seg (s : sync) i n c g : is_seg s c g -> is_seg (cut s i n) c (cutseg g i n).
Proof.
  intros (H1 & H2 & H3 & H4). split; [|split; [exact H2|split; [exact H3|]]]; simpl.
  - rewrite nth_error_map, H1. reflexivity.
  - rewrite H3, H4. reflexivity.
Qed.
Lemma is_seg_len (s : sync) c g : sync_ok s -> is_seg s c g -> length (g_vals g) = s_size s.
Proof. intros H (H1 & _). apply (so_size _ H). eapply nth_error_In; eauto. Qed.

Lemma cutseg_samples (g : seg) i n : pos (g_rate g) ->
  seg_samples (cutseg g i n) = firstn n (skipn i (seg_samples g)).
Proof.
  intros Hr. rewrite !seg_samples_stamps. simpl.
  rewrite (stamps_ext _ (fun j => (g_start g + ZtoQc (Z.of_nat j) / g_rate g)%Qc) 0 i).
  2:{ intros j _. rewrite time_shift by exact Hr. rewrite !Nat2Z.inj_add. reflexivity. }
  set (f := fun j : nat => _). clearbody f. generalize (g_vals g) as l. intros l.
  assert (G : forall l i k, skipn i (@stamps Qc V f k l) = stamps f (k + i) (skipn i l)).
  { clear. induction l as [|x l IH]; intros i k; [destruct i; reflexivity|].
    destruct i; [simpl; rewrite Nat.add_0_r; reflexivity|]. simpl. unfold stamps in *. simpl. rewrite IH. replace (S k + i) with (k + S i) by lia. reflexivity. }
  assert (G2 : forall l n k, firstn n (@stamps Qc V f k l) = stamps f k (firstn n l)).
  { clear. induction l as [|x l IH]; intros n k; [destruct n; reflexivity|].
    destruct n; [reflexivity|]. simpl. unfold stamps in *. simpl. f_equal. apply IH. }
  rewrite G, G2. reflexivity.
Qed.

Lemma iscut_restricted P (s : sync) i n c g : sync_ok s -> pos (s_rate s) -> iscut P s i n -> is_seg s c g ->
  restricted P g (cutseg g i n).
Proof.
  intros Hs Hr [H1 H2] Hg. split; [reflexivity|]. split; [reflexivity|].
  pose proof (is_seg_len s c g Hs Hg) as Hl. destruct Hg as (_ & _ & Er & Es).
  rewrite !seg_samples_stamps. rewrite (filter_stamps P _ (g_vals g) i n); [|lia|].
  - simpl. apply stamps_ext. intros j _. rewrite Er, Es. rewrite time_shift by exact Hr. rewrite !Nat2Z.inj_add. reflexivity.
  - intros j Hj. rewrite Hl in Hj. rewrite (H2 j Hj). rewrite Er, Es. reflexivity.
Qed.

(** ** one run *)
Lemma extract_meets (s : sync) a b : sync_ok s -> pos (s_rate s) -> 0 < s_size s ->
  (a <= last_time s)%Qc -> (s_start s <= b)%Qc ->
  exists i n, sync_extract_t kone s a b false = Ok (cut s i n) /\ iscut (within a b) s i n.
Proof.
  intros Hs Hr Hn Ha Hb. destruct (extract_t_bounds s a b Hs Hr Hn) as (i & n & H & Hin & Hi & Hj).
  exists i, n. split; [exact H|]. split; [exact Hin|]. intros j Hjs. rewrite (Hj j Hjs), within_iff. split.
  - intros [H1 H2]. split.
    + destruct H1 as [H1| ->]; [exact H1|].
      replace (Z.of_nat (s_size s - 1)) with (Z.of_nat (s_size s) - 1)%Z by lia. exact Ha.
    + destruct H2 as [H2| ->]; [exact H2|]. change (Z.of_nat 0) with 0%Z. rewrite sample_0. exact Hb.
  - tauto.
Qed.

Lemma extract_misses (s : sync) a b : sync_ok s -> pos (s_rate s) -> 0 < s_size s ->
  (b < s_start s)%Qc \/ (last_time s < a)%Qc ->
  exists i n, sync_extract_t kone s a b false = Ok (cut s i n) /\ n <= 1 /\ iscut (within a b) s 0 0.
Proof.
  intros Hs Hr Hn Hm. destruct (extract_t_bounds s a b Hs Hr Hn) as (i & n & H & Hin & Hi & Hj).
  assert (Hlast : last_time s = sample_time s (Z.of_nat (s_size s - 1))) by (unfold last_time; f_equal; lia).
  assert (Hno : forall j, j < s_size s -> within a b (sample_time s (Z.of_nat j)) = true -> False).
  { intros j Hjs Hw. apply within_iff in Hw as [W1 W2]. destruct Hm as [Hm|Hm].
    - apply (Qclt_not_le _ _ Hm). eapply Qcle_trans; [|exact W2]. rewrite <- sample_0. apply sample_mono; [exact Hr|lia].
    - apply (Qclt_not_le _ _ Hm). eapply Qcle_trans; [exact W1|]. rewrite Hlast. apply sample_mono; [exact Hr|lia]. }
  exists i, n. split; [exact H|]. split.
  - destruct (Nat.le_gt_cases n 1) as [|Hn2]; [assumption|exfalso].
    assert (H1 : i <= i < i + n) by lia. assert (H2 : i <= i + 1 < i + n) by lia.
    apply (Hj i) in H1; [|lia]. apply (Hj (i + 1)) in H2; [|lia].
    destruct H1 as [[A1|A1] [B1|B1]]; [apply (Hno i); [lia|apply within_iff; auto]| | |]; try lia.
    destruct H2 as [[A2|A2] [B2|B2]]; [apply (Hno (i + 1)); [lia|apply within_iff; auto]| | |]; try lia.
    (* a <= t_i with i = 0, and t_(i+1) <= b with i+1 the last one: both ends inside *)
    destruct Hm as [Hm|Hm].
    + apply (Qclt_not_le _ _ Hm). eapply Qcle_trans; [|exact B2]. rewrite <- sample_0. apply sample_mono; [exact Hr|lia].
    + apply (Qclt_not_le _ _ Hm). eapply Qcle_trans; [exact A1|]. rewrite Hlast. apply sample_mono; [exact Hr|lia].
  - split; [lia|]. intros j Hjs. split; [lia|]. intros Hw. destruct (Hno j Hjs Hw).
Qed.
End Extract.
