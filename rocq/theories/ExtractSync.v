(** Windows on a single run: the statements used by the property file. *)
From Coq Require Import QArith Qcanon.
From Verif Require Import Base BaseLemmas SliceLemmas Arith OrdLaws QcLemmas TagsModel SpecTags TagsProofs
  SyncModel SetModel SpecSet SetProofs SpecTime ExtractProofs.
Open Scope nat_scope.

Section ES.
Context {V K : Type} (kone : K).
Notation sync := (sync QA V K).
Notation seg := (@seg QA V K).

Lemma cut_channelwise (s : sync) i n (R : seg -> seg -> Prop) :
  (forall c g, is_seg s c g -> R g (cutseg g i n)) -> channelwise R s (cut s i n).
Proof.
  intros H. split; [simpl; apply map_length|]. intros c g Hg. exists (cutseg g i n). split; [apply cut_seg, Hg|eauto].
Qed.

Lemma window_inside (s : sync) a b : sync_ok s -> pos (s_rate s) -> 0 < s_size s ->
  (a <= last_time s)%Qc -> (s_start s <= b)%Qc ->
  exists s', sync_extract_t kone s a b false = Ok s' /\ channelwise (restricted (within a b)) s s'.
Proof.
  intros Hs Hr Hn Ha Hb. destruct (extract_meets kone s a b Hs Hr Hn Ha Hb) as (i & n & H & Hc).
  exists (cut s i n). split; [exact H|]. apply cut_channelwise. intros c g Hg. apply (iscut_restricted _ s i n c g); assumption.
Qed.

Lemma cut_piece (s : sync) i n : pos (s_rate s) -> channelwise (piece i n) s (cut s i n).
Proof.
  intros Hr. apply cut_channelwise. intros c g (_ & _ & Er & _). split; [reflexivity|]. split; [reflexivity|].
  apply cutseg_samples. rewrite Er. exact Hr.
Qed.

Lemma window_before (s : sync) a b : sync_ok s -> pos (s_rate s) -> 0 < s_size s ->
  (a <= b)%Qc -> (b < s_start s)%Qc ->
  exists s', sync_extract_t kone s a b false = Ok s' /\ channelwise (piece 0 1) s s'.
Proof.
  intros Hs Hr Hn Hab Hb. destruct (extract_t_bounds kone s a b Hs Hr Hn) as (i & n & H & Hin & Hi & Hj).
  assert (S0 : forall j, (s_start s <= sample_time s (Z.of_nat j))%Qc).
  { intros j. rewrite <- sample_0. apply sample_mono; [exact Hr|lia]. }
  assert (E : forall j, j < s_size s -> (i <= j < i + n <-> j = 0)).
  { intros j Hjs. rewrite (Hj j Hjs). split.
    - intros [_ [G| ->]]; [|reflexivity]. destruct (Qclt_not_le _ _ Hb). exact (Qcle_trans _ _ _ (S0 j) G).
    - intros ->. split; [left|auto]. apply (Qcle_trans _ _ _ Hab), (Qcle_trans _ (s_start s)); [apply Qclt_le_weak, Hb|apply S0]. }
  exists (cut s 0 1). split; [|apply cut_piece, Hr].
  assert (i = 0 /\ n = 1) as [-> ->]; [|exact H].
  pose proof (E 0 Hn). destruct (Nat.le_gt_cases n 1); [lia|]. pose proof (E 1 ltac:(lia)). lia.
Qed.

Lemma window_after (s : sync) a b : sync_ok s -> pos (s_rate s) -> 0 < s_size s ->
  (a <= b)%Qc -> (last_time s < a)%Qc ->
  exists s', sync_extract_t kone s a b false = Ok s' /\ channelwise (piece (s_size s - 1) 1) s s'.
Proof.
  intros Hs Hr Hn Hab Ha. destruct (extract_t_bounds kone s a b Hs Hr Hn) as (i & n & H & Hin & Hi & Hj).
  assert (S0 : forall j, j < s_size s -> (sample_time s (Z.of_nat j) <= last_time s)%Qc).
  { intros j Hjs. unfold last_time. apply sample_mono; [exact Hr|lia]. }
  assert (E : forall j, j < s_size s -> (i <= j < i + n <-> j = s_size s - 1)).
  { intros j Hjs. rewrite (Hj j Hjs). split.
    - intros [[G|G] _]; [|exact G]. destruct (Qclt_not_le _ _ Ha). exact (Qcle_trans _ _ _ G (S0 j Hjs)).
    - intros Ej. split; [auto|left]. apply (Qcle_trans _ _ _ (S0 j Hjs)), (Qcle_trans _ a); [apply Qclt_le_weak, Ha|exact Hab]. }
  exists (cut s (s_size s - 1) 1). split; [|apply cut_piece, Hr].
  assert (i = s_size s - 1 /\ n = 1) as [-> ->]; [|exact H].
  pose proof (E (s_size s - 1) ltac:(lia)). destruct (Nat.eq_dec i (s_size s - 1)); [lia|]. pose proof (E i Hi). lia.
Qed.

Lemma pmax_right (a b : Qc) : (a <= b)%Qc -> @pmax QA a b = b.
Proof.
  intros H. unfold pmax. simpl. destruct (Qcltb a b) eqn:E; [reflexivity|]. apply Qcltb_ge in E. apply Qcle_antisym; assumption.
Qed.
Lemma pmin_right (a b : Qc) : (b <= a)%Qc -> @pmin QA a b = b.
Proof.
  intros H. unfold pmin. simpl. destruct (Qcltb b a) eqn:E; [reflexivity|]. apply Qcltb_ge in E. apply Qcle_antisym; assumption.
Qed.

(** strict windows *)
Lemma strict_inside (s : sync) a b : pos (s_rate s) ->
  (s_start s <= a)%Qc -> (a <= last_time s)%Qc -> (s_start s <= b)%Qc -> (b <= last_time s)%Qc ->
  sync_extract_t kone s a b true = sync_extract_t kone s a b false.
Proof.
  intros Hr A1 A2 B1 B2. unfold sync_extract_t. rewrite (s_stop_pos s Hr). cbn [bind].
  rewrite (pmax_right _ _ A1), (pmax_right _ _ B1), (pmin_right _ _ A2), (pmin_right _ _ B2).
  cbn [nleb QA]. rewrite (proj2 (Qcleb_le _ _) A1), (proj2 (Qcleb_le _ _) A2), (proj2 (Qcleb_le _ _) B1), (proj2 (Qcleb_le _ _) B2).
  cbn [andb check bind]. unfold time_to_index. cbn [bind nceil nfloor QA nmul nsub].
  set (i0 := Qcceil ((a - s_start s) * s_rate s)%Qc). set (i1 := Qcfloor ((b - s_start s) * s_rate s)%Qc).
  assert (Hi0 : forall z, (i0 <= z)%Z <-> (a <= sample_time s z)%Qc).
  { intros z. unfold i0, sample_time. simpl. rewrite Qcceil_le, time_le_iff by exact Hr. reflexivity. }
  assert (Hi1 : forall z, (z <= i1)%Z <-> (sample_time s z <= b)%Qc).
  { intros z. unfold i1, sample_time. simpl. rewrite Qcfloor_le, time_ge_iff by exact Hr. reflexivity. }
  assert (C1 : (0 <= i0)%Z).
  { destruct (Z_lt_ge_dec i0 0) as [E|]; [|lia]. assert (E' : (i0 <= -1)%Z) by lia. apply Hi0 in E'.
    pose proof (Qcle_trans _ _ _ A1 E') as G. rewrite <- (sample_0 s), sample_mono in G by exact Hr. lia. }
  assert (C2 : (i0 <= Z.of_nat (s_size s) - 1)%Z) by (apply Hi0, A2).
  assert (C3 : (0 <= i1)%Z) by (apply Hi1; rewrite sample_0; exact B1).
  assert (C4 : (i1 <= Z.of_nat (s_size s) - 1)%Z).
  { assert (E : (sample_time s i1 <= b)%Qc) by (apply Hi1; lia). pose proof (Qcle_trans _ _ _ E B2) as G.
    unfold last_time in G. rewrite sample_mono in G by exact Hr. exact G. }
  cbn [bind]. unfold extract_i. rewrite !(proj2 (check_ok _ _ tt)); [reflexivity|reflexivity|].
  simpl. rewrite !andb_true_iff, !Z.leb_le, Z.ltb_lt. lia.
Qed.
Lemma strict_outside (s : sync) a b : pos (s_rate s) ->
  (a < s_start s)%Qc \/ (last_time s < a)%Qc \/ (b < s_start s)%Qc \/ (last_time s < b)%Qc ->
  sync_extract_t kone s a b true = Err AssertionError.
Proof.
  intros Hr H. unfold sync_extract_t. rewrite (s_stop_pos s Hr). cbn [bind nleb QA].
  assert (G : forall x y, (x < y)%Qc -> Qcleb y x = false).
  { intros x y L. apply not_true_iff_false. rewrite Qcleb_le. apply Qclt_not_le, L. }
  destruct (Qcleb (s_start s) a && Qcleb a (last_time s)) eqn:E1; [|reflexivity]. cbn [check bind].
  destruct (Qcleb (s_start s) b && Qcleb b (last_time s)) eqn:E2; [|reflexivity]. exfalso.
  apply andb_true_iff in E1 as [? ?], E2 as [? ?]. destruct H as [H|[H|[H|H]]]; apply G in H; congruence.
Qed.

(** index windows *)
Lemma index_valid (s : sync) i_start i_stop last lo hi : sync_ok s -> pos (s_rate s) ->
  index_window (s_size s) i_start i_stop last lo hi -> valid_window (s_size s) lo hi ->
  forall strict, exists s', extract_i kone s i_start i_stop strict last = Ok s' /\
    channelwise (piece (Z.to_nat lo) (Z.to_nat (hi - lo))) s s'.
Proof.
  intros Hs Hr [W1 W2] [V1 V2] strict. exists (cut s (Z.to_nat lo) (Z.to_nat (hi - lo))). split; [|apply cut_piece, Hr].
  unfold extract_i.
  replace (match i_start with Some i => i | None => 0%Z end) with lo by (destruct i_start; assumption).
  replace (match i_stop with Some i => if last then (i + 1)%Z else i | None => Z.of_nat (s_size s) end) with hi by (destruct i_stop; assumption).
  rewrite (proj2 (check_ok _ _ tt)).
  2:{ apply orb_true_iff. right. rewrite !andb_true_iff, !Z.leb_le, Z.ltb_lt. lia. }
  cbn [bind]. unfold index_to_time. destruct (Z.ltb_spec lo 0); [lia|]. simpl neqb. rewrite (pos_eqb _ Hr). cbn [bind].
  rewrite <- (sync_new_cut kone s (Z.to_nat lo) (Z.to_nat (hi - lo)) Hs) by lia.
  replace (nadd QA (s_start s) (ndiv QA (nofZ QA lo) (s_rate s))) with (sample_time s (Z.of_nat (Z.to_nat lo))).
  2:{ unfold sample_time. rewrite Z2Nat.id by lia. reflexivity. }
  cbn [cut s_data s_cal s_rate s_start]. f_equal.
  apply map_ext_in. intros e He. pose proof (so_size _ Hs e He) as El. destruct (Z_le_gt_dec lo hi) as [L|L].
  - rewrite <- (py_slice1_cut e) by lia. f_equal; lia.
  - rewrite py_slice1_empty by lia. replace (Z.to_nat (hi - lo)) with 0 by lia. reflexivity.
Qed.

Lemma index_invalid (s : sync) i_start i_stop last lo hi :
  index_window (s_size s) i_start i_stop last lo hi -> ~ valid_window (s_size s) lo hi ->
  extract_i kone s i_start i_stop true last = Err AssertionError.
Proof.
  intros [W1 W2] Hv. unfold extract_i.
  replace (match i_start with Some i => i | None => 0%Z end) with lo by (destruct i_start; assumption).
  replace (match i_stop with Some i => if last then (i + 1)%Z else i | None => Z.of_nat (s_size s) end) with hi by (destruct i_stop; assumption).
  cbn [negb orb]. destruct (((0 <=? lo)%Z && (lo <? Z.of_nat (s_size s))%Z && (0 <=? hi)%Z && (hi <=? Z.of_nat (s_size s))%Z)) eqn:E; [|reflexivity].
  exfalso. rewrite !andb_true_iff, !Z.leb_le, Z.ltb_lt in E. apply Hv. unfold valid_window. lia.
Qed.

Lemma full_window (s : sync) : sync_ok s -> pos (s_rate s) -> 0 < s_size s ->
  s_stop s = Ok (last_time s) /\ sync_extract_t kone s (s_start s) (last_time s) false = Ok s.
Proof.
  intros Hs Hr Hn. split; [apply s_stop_pos, Hr|].
  assert (Hl : (s_start s <= last_time s)%Qc).
  { rewrite <- sample_0. unfold last_time. apply sample_mono; [exact Hr|lia]. }
  destruct (extract_meets kone s (s_start s) (last_time s) Hs Hr Hn Hl Hl) as (i & n & H & Hc). rewrite H. f_equal.
  destruct (iscut_unique _ s i n 0 (s_size s) Hc) as [E1 E2].
  { split; [lia|]. intros j Hj. rewrite within_iff. split; [intros _|lia]. split.
    - rewrite <- sample_0. apply sample_mono; [exact Hr|lia].
    - unfold last_time. apply sample_mono; [exact Hr|lia]. }
  rewrite E2 by lia. rewrite E1. apply cut_full, Hs.
Qed.
End ES.
