(** [merge_consecutive_runs]: what it returns (exact arithmetic). *)
From Coq Require Import QArith Qcanon Lqa.
From Verif Require Import Base BaseLemmas SliceLemmas Arith OrdLaws QcLemmas TagsModel SpecTags TagsProofs
  SyncModel SetModel SpecSet SetProofs SpecSelect TrackProofs SelectProofs OrderProofs JoinProofs JoinOk
  SpecTime ExtractProofs ExtractSet ExcludeProofs SpecConsec GroupProofs MergeProofs.
Open Scope nat_scope.

Ltac qlra' :=
  qc_in_hyps; qc_goal; unfold Qcle, Qclt in *;
  repeat (progress rewrite ?this_opp, ?this_add, ?this_mul, ?this_sub, ?this_Z, ?this_Q in * ); lra.

(** ** lists *)
Definition sub {B} (l : list B) (x y : nat) : list B := firstn (y - x) (skipn x l).
Definition pick {B} (l : list B) (idx : list nat) : list B :=
  concat (map (fun i => match nth_error l i with Some x => [x] | None => [] end) idx).

Lemma skipn_nth {B} (l : list B) : forall a x, nth_error l a = Some x -> skipn a l = x :: skipn (S a) l.
Proof. induction l as [|y l IH]; intros [|a] x H; try discriminate; simpl in *; [congruence|]. apply IH, H. Qed.
Lemma pick_seq {B} (l : list B) n : forall a, pick l (seq a n) = firstn n (skipn a l).
Proof.
  induction n as [|n IH]; intros a; [reflexivity|]. unfold pick in *. cbn [seq map concat]. rewrite IH.
  destruct (nth_error l a) as [x|] eqn:E.
  - rewrite (skipn_nth l a x E). reflexivity.
  - apply nth_error_None in E. rewrite !skipn_all2 by lia. rewrite !firstn_nil. reflexivity.
Qed.
Lemma pick_concat {B} (l : list B) ids : pick l (concat ids) = concat (map (pick l) ids).
Proof. unfold pick. induction ids as [|i ids IH]; simpl; [reflexivity|]. rewrite map_app, concat_app, IH. reflexivity. Qed.
Lemma pick_Forall2 {B} (l : list B) idx r : Forall2 (fun i s => nth_error l i = Some s) idx r -> pick l idx = r.
Proof. unfold pick. induction 1 as [|i s idx r H _ IH]; simpl; [reflexivity|]. rewrite H, IH. reflexivity. Qed.
Lemma sub_Forall2 {B} (l : list B) x y : x <= y <= length l -> Forall2 (fun i s => nth_error l i = Some s) (seq x (y - x)) (sub l x y).
Proof.
  intros H. destruct (nth_list l (seq x (y - x))) as [r Hr]; [intros i Hi; apply in_seq in Hi; lia|].
  assert (E : sub l x y = r) by (unfold sub; rewrite <- pick_seq; apply pick_Forall2, Hr). rewrite E. exact Hr.
Qed.
Lemma sub_nth {B} (l : list B) x y k : k < y - x -> nth_error (sub l x y) k = nth_error l (x + k).
Proof.
  intros H. unfold sub. revert x y k H. assert (G : forall (m : list B) n k, k < n -> nth_error (firstn n m) k = nth_error m k).
  { induction m as [|z m IH]; intros [|n] [|k] Hk; try reflexivity; try lia. simpl. apply IH. lia. }
  intros x y k H. rewrite G by exact H. clear. revert l. induction x as [|x IH]; intros [|z l]; try reflexivity.
  - destruct k; reflexivity.
  - simpl. apply IH.
Qed.
Lemma sub_length {B} (l : list B) x y : x <= y <= length l -> length (sub l x y) = y - x.
Proof. intros H. unfold sub. rewrite firstn_length, skipn_length. lia. Qed.
Lemma subs_concat {B} (l : list B) c : concat (map (fun r => sub l (fst r) (snd r)) (ranges c 0 (length l))) = l.
Proof.
  rewrite (map_ext _ (fun r => pick l (seq (fst r) (snd r - fst r)))) by (intros; symmetry; apply pick_seq).
  rewrite <- (map_map (fun r => seq (fst r) (snd r - fst r)) (pick l)), <- pick_concat, ranges_tile, pick_seq.
  simpl. apply firstn_all.
Qed.

Lemma ranges_adj c n : forall a R1 p q R2, ranges c a n = R1 ++ p :: q :: R2 -> snd p = fst q.
Proof.
  induction n as [|n IH]; intros a R1 p q R2 E; [destruct R1; discriminate|]. simpl in E.
  destruct (Nat.eq_dec n 0) as [->|Hn].
  { simpl in E. destruct R1 as [|r [|? R1]]; discriminate. }
  destruct (ranges_hd c n (S a) Hn) as (y0 & rs & Er). rewrite Er in E. destruct (c a).
  - destruct R1 as [|r R1].
    + injection E as <- ->. exact (IH (S a) [] (S a, y0) q R2 Er).
    + injection E as _ ->. apply (IH (S a) ((S a, y0) :: R1) p q R2). rewrite Er. reflexivity.
  - destruct R1 as [|r R1].
    + injection E as <- <- _. reflexivity.
    + injection E as _ E'. apply (IH (S a) R1 p q R2). rewrite Er. exact E'.
Qed.

Lemma foldM_concat {S B C} (f : S -> B -> C -> res S) (G : B -> list C) us : forall st,
  foldM (fun st u => foldM (fun st g => f st u g) st (G u)) st us =
  foldM (fun st p => f st (fst p) (snd p)) st (concat (map (fun u => map (pair u) (G u)) us)).
Proof.
  assert (App : forall (h : S -> B * C -> res S) l1 l2 s, foldM h s (l1 ++ l2) = (s' <- foldM h s l1 ;; foldM h s' l2)).
  { intros h. induction l1 as [|x l1 IH]; intros l2 s; simpl; [reflexivity|]. destruct (h s x); simpl; [apply IH|reflexivity]. }
  induction us as [|u us IH]; intros st; [reflexivity|]. cbn [map concat foldM]. rewrite App.
  assert (E : foldM (fun st g => f st u g) st (G u) = foldM (fun st p => f st (fst p) (snd p)) st (map (pair u) (G u))).
  { generalize (G u). intros l. revert st. induction l as [|x l IHl]; intros st; [reflexivity|]. simpl.
    destruct (f st u x); simpl; [apply IHl|reflexivity]. }
  rewrite E. destruct (foldM _ st (map (pair u) (G u))); simpl; [apply IH|reflexivity].
Qed.

(** ** slices of runs *)
Definition g_end (n : nat) (g : nat * option nat) : nat := match snd g with Some e => e | None => n end.
Definition rng (n : nat) (g : nat * option nat) : nat * nat := (fst g, g_end n g).
Lemma group_slice_range n g : fst g <= g_end n g <= n ->
  slice_range (group_slice g) n = Ok (map Z.of_nat (seq (fst g) (g_end n g - fst g))).
Proof.
  destruct g as [x e]. unfold g_end. simpl. intros H. unfold slice_range.
  assert (E : forall y, x <= y <= n -> zrange (Z.of_nat x) (Z.of_nat y) 1 = map Z.of_nat (seq x (y - x))).
  { intros y Hy. rewrite zrange_1. replace (Z.to_nat (Z.of_nat y - Z.of_nat x)) with (y - x) by lia.
    assert (G : forall m a b, map (fun k => (Z.of_nat a + Z.of_nat k)%Z) (seq b m) = map Z.of_nat (seq (a + b) m)).
    { clear. induction m as [|m IH]; intros a b; [reflexivity|]. simpl. rewrite IH. f_equal; [lia|]. f_equal. f_equal. lia. }
    rewrite G. rewrite Nat.add_0_r. reflexivity. }
  assert (C : forall y, y <= n -> (if (Z.of_nat y <? 0)%Z then (if (Z.of_nat y + Z.of_nat n <? 0)%Z then 0%Z else (Z.of_nat y + Z.of_nat n)%Z) else if (Z.of_nat n <=? Z.of_nat y)%Z then Z.of_nat n else Z.of_nat y) = Z.of_nat y).
  { intros y Hy. destruct (Z.ltb_spec (Z.of_nat y) 0); [lia|]. destruct (Z.leb_spec (Z.of_nat n) (Z.of_nat y)); lia. }
  unfold slice_indices, group_slice. destruct e as [e|]; simpl; rewrite !C by lia; rewrite E by lia; reflexivity.
Qed.

Lemma map_of_nat_inj (l l' : list nat) : map Z.of_nat l = map Z.of_nat l' -> l = l'.
Proof.
  revert l'. induction l as [|x l IH]; intros [|y l'] H; try discriminate; [reflexivity|]. injection H as H1 H2.
  f_equal; [lia|auto].
Qed.

(** ** absolute values *)
Lemma Qceqb_iff (x y : Qc) : Qceqb x y = true <-> x = y.
Proof. unfold Qceqb. rewrite Qeq_bool_iff, Qc_eq_this. reflexivity. Qed.
Lemma Qcabs_cases (x : Qc) : ((0 <= Qcabs' x)%Qc /\ (Qcabs' x = x \/ Qcabs' x = - x)%Qc) .
Proof.
  unfold Qcabs'. destruct (Qcltb x (Q2Qc 0)) eqn:E.
  - apply Qcltb_lt in E. split; [qlra|auto].
  - apply Qcltb_ge in E. split; [exact E|auto].
Qed.
Lemma Qcabs_abs_le (x b : Qc) : (Qcabs' x <= b)%Qc <-> abs_le x b.
Proof.
  unfold abs_le. destruct (Qcabs_cases x) as [H0 [E|E]]; rewrite E in *; split; intros H; try (split; qlra); destruct H; qlra.
Qed.

Section Consec.
Context {V K : Type} (kone : K).
Notation sync := (sync QA V K).
Notation sigset := (@sigset QA V K).
Notation seg := (@seg QA V K).

Definition followsb (r r' : sync) : bool :=
  Qceqb (s_rate r') (s_rate r) && @isclose QA (Q2Qc 1 / s_rate r)%Qc (s_start r' - last_time r)%Qc.
Lemma followsb_iff (r r' : sync) : followsb r r' = true <-> follows r r'.
Proof.
  unfold followsb, follows, tolerance, period, gap. rewrite andb_true_iff, (Qceqb_iff _ _). 
  set (p := (Q2Qc 1 / s_rate r)%Qc). set (g := (s_start r' - last_time r)%Qc).
  clearbody p g.
  assert (E : @isclose QA p g = true <-> (exists b, (exists g0, (0 <= g0)%Qc /\ (g0 = g \/ g0 = - g)%Qc /\
            b = (Q2Qc (1 # 100000000) + Q2Qc (1 # 100000) * g0)%Qc) /\ abs_le (p - g)%Qc b)).
  { unfold isclose. cbn [nleb nabs nsub nadd natol nmul nrtol nfinite neqb QA].
    rewrite orb_true_iff, andb_true_r, (Qceqb_iff p g), (Qcleb_le _ _), (Qcabs_abs_le _ _).
    destruct (Qcabs_cases g) as [H0 Hg]. split.
    - intros [H| ->].
      + exists (Q2Qc (1 # 100000000) + Q2Qc (1 # 100000) * Qcabs' g)%Qc. split; [exists (Qcabs' g); auto|exact H].
      + exists (Q2Qc (1 # 100000000) + Q2Qc (1 # 100000) * Qcabs' g)%Qc. split; [exists (Qcabs' g); auto|].
        generalize dependent (Qcabs' g). intros q H0 _. split; qlra'.
    - intros (b & (g0 & G0 & G1 & ->) & G2). left. assert (Eg : g0 = Qcabs' g); [|rewrite <- Eg; exact G2].
      destruct Hg as [Hg|Hg], G1 as [G1|G1]; rewrite Hg in *; subst g0; qlra'. }
  rewrite E. reflexivity.
Qed.
Lemma follows_dec (r r' : sync) : {follows r r'} + {~ follows r r'}.
Proof.
  destruct (followsb r r') eqn:E; [left; apply followsb_iff, E|right].
  intros H. apply followsb_iff in H. congruence.
Qed.

Definition conn (l : list sync) (i : nat) : bool :=
  match nth_error l i, nth_error l (S i) with Some r, Some r' => followsb r r' | _, _ => false end.
Definition iv_of (s : sync) : Qc * Qc := (s_start s, last_time s).
Definition flags (ρ : Qc) (l : list sync) : list bool :=
  @consecutive_flags QA ρ (combine (map (fun s => s_rate s) l) (map iv_of l)).

Lemma flags_nth ρ l : forall i, nth_error (flags ρ l) i =
  match nth_error l i, nth_error l (S i) with
  | Some r, Some r' => Some (Qceqb (s_rate r) ρ && followsb r r') | _, _ => None end.
Proof.
  unfold flags. induction l as [|r l IH]; intros i; [destruct i; reflexivity|].
  destruct l as [|r' l]; [destruct i as [|[|i]]; reflexivity|].
  cbn [map combine consecutive_flags iv_of]. destruct i as [|i].
  - cbn [nth_error]. f_equal. unfold followsb. cbn [neqb ndiv n1 nsub QA].
    destruct (Qceqb (s_rate r) ρ) eqn:E; [|reflexivity]. apply Qceqb_iff in E. rewrite E. reflexivity.
  - exact (IH i).
Qed.
Lemma flags_length ρ l : length (flags ρ l) = length l - 1.
Proof.
  unfold flags. induction l as [|r l IH]; [reflexivity|]. destruct l as [|r' l]; [reflexivity|].
  transitivity (S (length (@consecutive_flags QA ρ (combine (map (fun s => s_rate s) (r' :: l)) (map iv_of (r' :: l)))))); [reflexivity|].
  rewrite IH. simpl. lia.
Qed.

Lemma conn_inv l i : conn l i = true -> exists r r', nth_error l i = Some r /\ nth_error l (S i) = Some r' /\ followsb r r' = true.
Proof.
  unfold conn. destruct (nth_error l i) as [r|]; [|discriminate]. destruct (nth_error l (S i)) as [r'|]; [|discriminate]. eauto.
Qed.
Lemma followsb_rate (r r' : sync) : followsb r r' = true -> s_rate r' = s_rate r.
Proof. intros H. apply followsb_iff in H. apply H. Qed.

(** inside a range all rates are equal *)
Lemma range_rate l x y r : (forall i, x <= i < y - 1 -> conn l i = true) -> nth_error l x = Some r ->
  forall i r', x <= i < y -> nth_error l i = Some r' -> s_rate r' = s_rate r.
Proof.
  intros H Hr i. induction i as [|i IH]; intros r' Hi Hr'.
  - assert (x = 0) by lia. subst x. congruence.
  - destruct (Nat.eq_dec (S i) x) as [<-|]; [congruence|].
    destruct (conn_inv l i) as (a & b & Ha & Hb & Hf); [apply H; lia|].
    assert (b = r') by congruence. subst b. rewrite (followsb_rate _ _ Hf). apply IH; [lia|exact Ha].
Qed.

Lemma block_range ρ l s b : block (flags ρ l) s b <->
  s < b /\ maxrange (conn l) 0 (length l) s (S b) /\ exists r, nth_error l s = Some r /\ s_rate r = ρ.
Proof.
  unfold block, maxrange. rewrite flags_length. split.
  - intros (H1 & H2 & H3 & H4).
    assert (Hc : forall i, s <= i < b -> exists r r', nth_error l i = Some r /\ nth_error l (S i) = Some r' /\ s_rate r = ρ /\ followsb r r' = true).
    { intros i Hi. specialize (H2 i Hi). rewrite flags_nth in H2. destruct (nth_error l i) as [r|]; [|discriminate].
      destruct (nth_error l (S i)) as [r'|]; [|discriminate]. injection H2 as H2. apply andb_true_iff in H2 as [E1 E2].
      apply Qceqb_iff in E1. eauto 10. }
    assert (Hconn : forall i, s <= i < b -> conn l i = true).
    { intros i Hi. destruct (Hc i Hi) as (r & r' & E1 & E2 & _ & E3). unfold conn. rewrite E1, E2. exact E3. }
    destruct (Hc s ltac:(lia)) as (r0 & r1 & R0 & R1 & Er & _).
    split; [lia|]. split; [|eauto]. split; [lia|]. split; [lia|]. split; [intros i Hi; apply Hconn; lia|]. split.
    + destruct H3 as [->|H3]; [auto|]. right. rewrite flags_nth in H3. unfold conn.
      destruct (nth_error l (s - 1)) as [rp|] eqn:Ep; [|discriminate].
      destruct (nth_error l (S (s - 1))) as [rs|] eqn:Es; [|discriminate].
      injection H3 as H3. destruct (followsb rp rs) eqn:F; [|reflexivity]. rewrite andb_true_r in H3.
      destruct s as [|s]; [simpl in *; assert (rp = r0) by congruence; subst rp; rewrite <- Er in H3; unfold Qceqb in H3; rewrite Qeq_bool_refl in H3; discriminate|].
      replace (S (S s - 1)) with (S s) in Es by lia. assert (rs = r0) by congruence. subst rs. apply followsb_rate in F.
      assert (E : Qceqb (s_rate rp) ρ = true) by (apply Qceqb_iff; congruence). congruence.
    + destruct H4 as [->|H4]; [left; lia|]. right. replace (S b - 1) with b by lia. rewrite flags_nth in H4. unfold conn.
      destruct (nth_error l b) as [rb|] eqn:Eb; [|discriminate]. destruct (nth_error l (S b)) as [rb'|]; [|discriminate].
      injection H4 as H4. assert (E : s_rate rb = ρ).
      { rewrite <- Er. apply (range_rate l s (S b) r0) with (i := b); [|exact R0|lia|exact Eb]. intros i Hi. apply Hconn. lia. }
      assert (E' : Qceqb (s_rate rb) ρ = true) by (apply Qceqb_iff, E). rewrite E' in H4. exact H4.
  - intros (H0 & (H1 & H2 & H3 & H4 & H5) & r & Hr & Er). split; [lia|].
    assert (Hrate : forall i r', s <= i <= b -> nth_error l i = Some r' -> Qceqb (s_rate r') ρ = true).
    { intros i r' Hi Hi'. apply Qceqb_iff. rewrite <- Er. apply (range_rate l s (S b) r H3 Hr i r'); [lia|exact Hi']. }
    split; [|split].
    + intros i Hi. rewrite flags_nth. destruct (conn_inv l i) as (a & a' & Ha & Ha' & Hf); [apply H3; lia|].
      rewrite Ha, Ha', Hf, (Hrate i a); [reflexivity|lia|exact Ha].
    + destruct H4 as [->|H4]; [auto|]. destruct (Nat.eq_dec s 0) as [->|Hs]; [auto|]. right. rewrite flags_nth.
      unfold conn in H4. replace (S (s - 1)) with s in * by lia. rewrite Hr in *.
      destruct (nth_error l (s - 1)) as [rp|] eqn:Ep; [|apply nth_error_None in Ep; lia]. rewrite H4, andb_false_r. reflexivity.
    + destruct H5 as [H5|H5]; [left; lia|]. destruct (Nat.eq_dec b (length l - 1)) as [|Hb]; [auto|right].
      replace (S b - 1) with b in H5 by lia. rewrite flags_nth. unfold conn in H5.
      destruct (nth_error l b) as [rb|] eqn:Eb; [|apply nth_error_None in Eb; lia].
      destruct (nth_error l (S b)) as [rb'|] eqn:Eb'; [|apply nth_error_None in Eb'; lia]. rewrite H5, andb_false_r. reflexivity.
Qed.

Lemma groups_ranges ρ l x y : In (x, y) (map (rng (length l)) (group_indices (flags ρ l))) <->
  S x < y /\ maxrange (conn l) 0 (length l) x y /\ exists r, nth_error l x = Some r /\ s_rate r = ρ.
Proof.
  rewrite in_map_iff. split.
  - intros ([s e] & E & H). apply group_indices_spec in H as (b & Hb & He). unfold rng, g_end in E. simpl in E.
    apply block_range in Hb as (H1 & H2 & H3). rewrite flags_length in He.
    assert (y = S b) as ->. { destruct He as [(_ & ->)|(-> & ->)]; injection E as _ <-; unfold maxrange in H2; lia. }
    injection E as <- _. split; [lia|]. auto.
  - intros (H1 & H2 & H3). assert (Hb : block (flags ρ l) x (y - 1)).
    { apply block_range. replace (S (y - 1)) with y by lia. split; [lia|]. auto. }
    assert (Hy : y <= length l) by (unfold maxrange in H2; lia).
    destruct (Nat.eq_dec y (length l)) as [->|Hn].
    + exists (x, None). split; [reflexivity|]. apply group_indices_spec. exists (length l - 1). split; [exact Hb|]. right.
      rewrite flags_length. auto.
    + exists (x, Some y). split; [reflexivity|]. apply group_indices_spec. exists (y - 1). split; [exact Hb|]. left.
      rewrite flags_length. split; [lia|]. f_equal. lia.
Qed.

(** ** one merged run *)
Definition glued_data (b : list sync) (N : nat) : list (list V) :=
  map (fun i => concat (map (fun v => nth i (s_data v) []) b)) (seq 0 N).

Lemma range_runs (X : sigset) g grp : wf_set X -> fst g < g_end (nb_runs X) g <= nb_runs X ->
  select_runs kone X (RunSlice (group_slice g)) = Ok grp ->
  ss_signals grp = sub (ss_signals X) (fst g) (g_end (nb_runs X) g).
Proof.
  intros HX Hg H. apply select_runs_spec in H as (idx & runs & Hpk & Hr & _ & Hs & _); [|exact HX].
  cbn [picks] in Hpk. rewrite group_slice_range in Hpk by lia. injection Hpk as Hpk. apply map_of_nat_inj in Hpk. subst idx.
  rewrite Hs by apply seq_sorted. unfold sub. rewrite <- pick_seq. symmetry. apply pick_Forall2, Hr.
Qed.

Lemma merge_group_inv (X : sigset) ρ g m : wf_set X -> fst g < g_end (nb_runs X) g <= nb_runs X ->
  merge_group kone X ρ g = Ok m -> exists r0 b0, sub (ss_signals X) (fst g) (g_end (nb_runs X) g) = r0 :: b0 /\
    sync_ok m /\ s_rate m = ρ /\ s_start m = s_start r0 /\ s_cal m = s_cal r0 /\
    s_data m = glued_data (r0 :: b0) (length (s_data r0)).
Proof.
  intros HX Hg H. unfold merge_group in H. apply bind_ok in H as (grp & Hgrp & H).
  apply range_runs in Hgrp; [|exact HX|exact Hg]. rewrite Hgrp in H.
  destruct (sub (ss_signals X) (fst g) (g_end (nb_runs X) g)) as [|r0 b0] eqn:E; [discriminate|].
  exists r0, b0. split; [reflexivity|]. apply sync_new_inv in H as (Hd & Hr & Hs & Hok & Hc).
  split; [exact Hok|]. split; [exact Hr|]. split; [exact Hs|].
  assert (Hin : In r0 (ss_signals X)).
  { assert (In r0 (sub (ss_signals X) (fst g) (g_end (nb_runs X) g))) by (rewrite E; left; reflexivity).
    unfold sub in H. rewrite <- (firstn_skipn (fst g) (ss_signals X)). apply in_or_app. right.
    rewrite <- (firstn_skipn (g_end (nb_runs X) g - fst g) (skipn (fst g) (ss_signals X))). apply in_or_app. left. exact H. }
  unfold nb_channels in Hd. rewrite Hgrp in Hd. split; [|exact Hd].
  rewrite Hc. pose proof (so_cal _ (ws_sync X HX r0 Hin)). pose proof (so_chan _ (ws_sync X HX r0 Hin)).
  destruct (s_cal r0) as [|k ks]; [destruct (s_data r0); simpl in *; congruence|reflexivity].
Qed.

Lemma nth_error_glued (b : list sync) N c d : (forall r, In r b -> length (s_data r) = N) ->
  nth_error (glued_data b N) c = Some d -> exists ds, Forall2 (fun (r : sync) e => nth_error (s_data r) c = Some e) b ds /\ d = concat ds.
Proof.
  intros Hb H. unfold glued_data in H. apply nth_error_map_some in H as (i & Hi & ->).
  assert (Hlt : c < N) by (apply nth_error_Some_lt in Hi; rewrite seq_length in Hi; exact Hi).
  assert (i = c) as ->.
  { rewrite (nth_error_nth' _ 0) in Hi by (rewrite seq_length; exact Hlt). rewrite seq_nth in Hi by exact Hlt. injection Hi as <-. reflexivity. }
  exists (map (fun v => nth c (s_data v) []) b). split; [|reflexivity].
  induction b as [|r b IH]; constructor.
  - apply nth_error_nth'. rewrite Hb by (left; reflexivity). exact Hlt.
  - apply IH. intros r' Hr'. apply Hb. right. exact Hr'.
Qed.

Lemma glued_intro (b : list sync) r0 b0 (m : sync) : b = r0 :: b0 ->
  (forall r, In r b -> sync_ok r) -> (forall r, In r b -> length (s_data r) = length (s_data r0)) ->
  (forall r, In r b -> s_rate m = s_rate r) ->
  sync_ok m -> s_start m = s_start r0 -> s_cal m = s_cal r0 ->
  s_data m = glued_data b (length (s_data r0)) -> glued b m.
Proof.
  intros -> Hok HN Hr Hm Hs Hc Hd. exists r0, b0. split; [reflexivity|]. split; [exact Hs|]. split; [exact Hc|]. split; [exact Hr|].
  assert (HL : length (s_data m) = length (s_data r0)) by (rewrite Hd; unfold glued_data; rewrite map_length, seq_length; reflexivity).
  split; [exact HL|].
  assert (HD : forall c d, nth_error (s_data m) c = Some d -> exists ds, Forall2 (fun (r : sync) e => nth_error (s_data r) c = Some e) (r0 :: b0) ds /\ d = concat ds).
  { intros c d H. rewrite Hd in H. exact (nth_error_glued _ _ _ _ HN H). }
  split; [|exact HD].
  pose proof (so_chan _ Hm) as Hne. destruct (s_data m) as [|d dl] eqn:Ed; [congruence|].
  rewrite <- (so_size _ Hm d) by (rewrite Ed; left; reflexivity).
  destruct (HD 0 d eq_refl) as (ds & Hds & ->).
  clear - Hds Hok. induction Hds as [|r e b ds H _ IH]; [reflexivity|]. simpl. rewrite app_length, IH by (intros; apply Hok; right; assumption).
  f_equal. apply (so_size r (Hok r (or_introl eq_refl))). eapply nth_error_In; eauto.
Qed.

Lemma glued_single (r : sync) : sync_ok r -> glued [r] r.
Proof.
  intros Hok. exists r, []. split; [reflexivity|]. split; [reflexivity|]. split; [reflexivity|]. split; [intros ? [->|[]]; reflexivity|].
  split; [reflexivity|]. split; [simpl; lia|]. intros c d H. exists [d]. split; [constructor; [exact H|constructor]|simpl; symmetry; apply app_nil_r].
Qed.
End Consec.
