(** Proofs about the bookkeeping of rejected rows. *)
From Verif Require Import Base BaseLemmas Arith MestModel SpecMest.

(** ** Deleting positions *)
Fixpoint del {T} (a : nat) (idx : list Z) (l : list T) : list T :=
  match l with
  | [] => []
  | x :: l => if memb Z.eqb (Z.of_nat a) idx then del (S a) idx l else x :: del (S a) idx l
  end.

Definition nn (idx : list Z) : Prop := forall i, In i idx -> (0 <= i)%Z.

Lemma designated_nn n idx i : nn idx -> designated n idx i = memb Z.eqb (Z.of_nat i) idx.
Proof.
  intros H. unfold designated, memb. induction idx as [|j idx IH]; [reflexivity|]. simpl.
  rewrite IH by (intros x Hx; apply H; right; exact Hx). f_equal.
  unfold norm. assert (0 <= j)%Z by (apply H; left; reflexivity).
  destruct (j <? 0)%Z eqn:E; [apply Z.ltb_lt in E; lia|]. rewrite Z.eqb_sym. reflexivity.
Qed.

Lemma del_filter {T} n idx (l : list T) a : nn idx ->
  map snd (filter (fun p => negb (designated n idx (fst p))) (combine (seq a (length l)) l)) = del a idx l.
Proof.
  intros H. revert a. induction l as [|x l IH]; intros a; [reflexivity|]. simpl.
  rewrite designated_nn by exact H. destruct (memb Z.eqb (Z.of_nat a) idx); simpl; rewrite IH; reflexivity.
Qed.

Lemma in_range_nn n j : (0 <= j)%Z -> in_range n j = true <-> (j < Z.of_nat n)%Z.
Proof.
  intros H. unfold in_range. rewrite andb_true_iff, Z.leb_le, Z.ltb_lt. lia.
Qed.

Lemma legal_range n idx : nn idx -> forallb (in_range n) idx = true <-> legal n idx.
Proof.
  intros H. rewrite forallb_forall. unfold legal. split; intros G i Hi; specialize (G i Hi); specialize (H i Hi);
  [apply in_range_nn in G; [lia|exact H] | apply in_range_nn; lia].
Qed.

Lemma legal_nn n idx : legal n idx -> nn idx.
Proof. intros H i Hi. apply H in Hi. lia. Qed.

Lemma np_delete_ok {T} (l : list T) idx l' : nn idx -> np_delete l idx = Ok l' <-> legal (length l) idx /\ l' = del 0 idx l.
Proof.
  intros H. unfold np_delete, check. destruct (forallb (in_range (length l)) idx) eqn:E; simpl.
  - apply (legal_range _ _ H) in E. unfold enum. rewrite del_filter by exact H. split; [intros [= <-]; auto | intros [_ ->]; reflexivity].
  - split; [discriminate|]. intros [G _]. apply (legal_range _ _ H) in G. congruence.
Qed.

Lemma del_nil {T} (l : list T) a : del a [] l = l.
Proof. revert a. induction l as [|x l IH]; intros a; [reflexivity|]. simpl. rewrite IH. reflexivity. Qed.

Lemma eliminate_ok {T} (l : list T) idx l' : nn idx -> eliminate l idx = Ok l' <-> legal (length l) idx /\ l' = del 0 idx l.
Proof.
  intros H. destruct idx as [|j idx]; [|apply np_delete_ok, H]. simpl. rewrite del_nil.
  split; [intros [= <-]; split; [intros i []|reflexivity] | intros [_ ->]; reflexivity].
Qed.

Lemma del_app {T} idx (l m : list T) a : del a idx (l ++ m) = del a idx l ++ del (a + length l) idx m.
Proof.
  revert a. induction l as [|x l IH]; intros a; simpl; [rewrite Nat.add_0_r; reflexivity|].
  rewrite IH, Nat.add_succ_r. destruct (memb Z.eqb (Z.of_nat a) idx); reflexivity.
Qed.

Lemma del_far {T} idx (l : list T) a : (forall i, In i idx -> (i < Z.of_nat a)%Z) -> del a idx l = l.
Proof.
  revert a. induction l as [|x l IH]; intros a H; [reflexivity|]. simpl.
  destruct (memb Z.eqb (Z.of_nat a) idx) eqn:E.
  - apply (memb_In _ Z.eqb_eq) in E. apply H in E. lia.
  - rewrite IH; [reflexivity|]. intros i Hi. apply H in Hi. lia.
Qed.

Lemma del_In {T} idx (l : list T) a x : In x (del a idx l) <-> exists p, nth_error l p = Some x /\ ~ In (Z.of_nat (a + p)) idx.
Proof.
  revert a. induction l as [|y l IH]; intros a; simpl.
  - split; [intros []|intros ([|p] & Hp & _); discriminate].
  - assert (Hs : In x (del (S a) idx l) <-> exists p, nth_error (y :: l) (S p) = Some x /\ ~ In (Z.of_nat (a + S p)) idx).
    { rewrite IH. simpl. split; intros (p & Hp & Hn); exists p; (split; [exact Hp|]); [rewrite Nat.add_succ_r|rewrite Nat.add_succ_r in Hn]; exact Hn. }
    destruct (memb Z.eqb (Z.of_nat a) idx) eqn:E.
    + apply (memb_In _ Z.eqb_eq) in E. rewrite Hs. split.
      * intros (p & Hp & Hn). exists (S p). auto.
      * intros ([|p] & Hp & Hn); [rewrite Nat.add_0_r in Hn; contradiction|]. exists p. auto.
    + assert (E' : ~ In (Z.of_nat a) idx) by (intros G; apply (memb_In _ Z.eqb_eq) in G; congruence).
      simpl. rewrite Hs. split.
      * intros [->|(p & Hp & Hn)]; [exists 0; rewrite Nat.add_0_r; auto|exists (S p); auto].
      * intros ([|p] & Hp & Hn); [left; simpl in Hp; congruence|right; exists p; auto].
Qed.

Lemma del_sub {T} idx (l : list T) a x : In x (del a idx l) -> In x l.
Proof. rewrite del_In. intros (p & Hp & _). apply nth_error_In in Hp. exact Hp. Qed.

Lemma del_sorted {T} (R : T -> T -> Prop) idx (l : list T) a : StronglySorted R l -> StronglySorted R (del a idx l).
Proof.
  revert a. induction l as [|x l IH]; intros a H; simpl; [constructor|]. inversion H; subst.
  destruct (memb Z.eqb (Z.of_nat a) idx); [apply IH; assumption|]. constructor; [apply IH; assumption|].
  apply Forall_forall. intros y Hy. apply del_sub in Hy. rewrite Forall_forall in H3. apply H3, Hy.
Qed.

Lemma del_map {T U} (f : T -> U) idx l a : del a idx (map f l) = map f (del a idx l).
Proof. revert a. induction l as [|x l IH]; intros a; simpl; [reflexivity|]. rewrite IH. destruct (memb Z.eqb (Z.of_nat a) idx); reflexivity. Qed.

Lemma del_pick {T} (l : list T) rows l' idx a : pick l rows l' -> pick l (del a idx rows) (del a idx l').
Proof.
  intros H. revert a. induction H as [|i x rows l' Hix H IH]; intros a; simpl; [constructor|].
  destruct (memb Z.eqb (Z.of_nat a) idx); [apply IH|]. constructor; [exact Hix|apply IH].
Qed.

Lemma pick_length {T} (l : list T) rows l' : pick l rows l' -> length l' = length rows.
Proof. induction 1; simpl; congruence. Qed.

Lemma pick_all {T} (l : list T) : pick l (seq 0 (length l)) l.
Proof.
  enough (H : forall l2 l1 : list T, pick (l1 ++ l2) (seq (length l1) (length l2)) l2) by (apply (H l [])).
  induction l2 as [|x l2 IH]; intros l1; simpl; [constructor|]. constructor.
  - rewrite nth_error_app2, Nat.sub_diag by lia. reflexivity.
  - specialize (IH (l1 ++ [x])). rewrite <- app_assoc in IH. simpl in IH.
    rewrite app_length in IH. simpl in IH. rewrite Nat.add_1_r in IH. exact IH.
Qed.

Lemma del_remain rows idx : StronglySorted lt rows -> remain rows idx (del 0 idx rows).
Proof. intros H. split; [apply del_sorted, H|]. intros x. apply (del_In idx rows 0). Qed.

Lemma sorted_seq a n : StronglySorted lt (seq a n).
Proof.
  revert a. induction n as [|n IH]; intros a; simpl; constructor; [apply IH|]. apply Forall_forall. intros x Hx. apply in_seq in Hx. lia.
Qed.

(** ** How many entries are left *)
Lemma zmax_ge l i : In i l -> (i <= zmax l)%Z.
Proof.
  assert (H : forall l a, (a <= fold_left Z.max l a)%Z /\ forall i, In i l -> (i <= fold_left Z.max l a)%Z).
  { induction l0 as [|y l0 IH]; intros a; simpl; [split; [lia|intros ? []]|]. destruct (IH (Z.max a y)) as [H1 H2].
    split; [lia|]. intros j [->|Hj]; [lia|apply H2, Hj]. }
  destruct l as [|x l]; simpl; [intros []|]. destruct (H l x) as [H1 H2]. intros [->|Hi]; [exact H1|apply H2, Hi].
Qed.

Lemma zmax_nonneg l : nn l -> (0 <= zmax l)%Z.
Proof. intros H. destruct l as [|x l]; [simpl; lia|]. pose proof (zmax_ge (x :: l) x (or_introl eq_refl)). specialize (H x (or_introl eq_refl)). lia. Qed.

(** deletion keeps everything beyond the largest position *)
Lemma del_len_ge {T} idx (l : list T) a m : (forall i, In i idx -> (i < Z.of_nat (a + m))%Z) -> length l <= length (del a idx l) + m.
Proof.
  revert a m. induction l as [|x l IH]; intros a m H; simpl; [lia|].
  destruct m as [|m].
  - assert (E : memb Z.eqb (Z.of_nat a) idx = false).
    { apply not_true_iff_false. intros E. apply (memb_In _ Z.eqb_eq) in E. apply H in E. lia. }
    rewrite E. simpl. rewrite del_far; [lia|]. intros i Hi. apply H in Hi. lia.
  - specialize (IH (S a) m). assert (G : forall i, In i idx -> (i < Z.of_nat (S a + m))%Z) by (intros i Hi; apply H in Hi; lia).
    specialize (IH G). destruct (memb Z.eqb (Z.of_nat a) idx); simpl; lia.
Qed.

(** ** Two index ranges from which the same positions are deleted *)
(** [A] and [B] start with the same entries, and what follows is in one of them only *)
Definition aligned (A B : list Z) : Prop := exists P X Y, A = P ++ X /\ B = P ++ Y /\ (X = [] \/ Y = []).

Lemma aligned_del A B idx : aligned A B -> legal (length A) idx -> legal (length B) idx ->
  exists P X Y, A = P ++ X /\ B = P ++ Y /\ (X = [] \/ Y = []) /\ del 0 idx A = del 0 idx P ++ X /\ del 0 idx B = del 0 idx P ++ Y.
Proof.
  intros (P & X & Y & -> & -> & Hxy) HA HB. exists P, X, Y. do 3 (split; [first [reflexivity|exact Hxy]|]).
  assert (HP : forall i, In i idx -> (i < Z.of_nat (0 + length P))%Z).
  { intros i Hi. apply HA in Hi as Ha. apply HB in Hi as Hb. destruct Hxy as [-> | ->]; rewrite app_nil_r in *; lia. }
  rewrite !del_app. rewrite !(del_far idx _ (0 + length P)) by exact HP. auto.
Qed.

Lemma aligned_step A B idx : aligned A B -> legal (length A) idx -> legal (length B) idx -> aligned (del 0 idx A) (del 0 idx B).
Proof.
  intros H HA HB. destruct (aligned_del A B idx H HA HB) as (P & X & Y & -> & -> & Hxy & -> & ->). exists (del 0 idx P), X, Y. auto.
Qed.

(** what is deleted is the same on both sides *)
Lemma aligned_lost A B idx v : NoDup A -> NoDup B -> aligned A B -> legal (length A) idx -> legal (length B) idx ->
  (In v A /\ ~ In v (del 0 idx A)) <-> (In v B /\ ~ In v (del 0 idx B)).
Proof.
  intros NA NB H HA HB. destruct (aligned_del A B idx H HA HB) as (P & X & Y & -> & -> & Hxy & -> & ->).
  assert (D : forall X : list Z, NoDup (P ++ X) -> In v P -> ~ In v X).
  { clear. intros X H Hp Hx. induction P as [|p P IH]; [destruct Hp|]. simpl in H. inversion H; subst.
    destruct Hp as [->|Hp]; [apply H2, in_or_app; auto|auto]. }
  rewrite !in_app_iff. split; intros [H1 H2]; (destruct H1 as [H1|H1]; [|exfalso; apply H2; auto]);
  (split; [auto|]); intros [G|G]; try (apply H2; left; exact G); refine (D _ _ H1 G); assumption.
Qed.

Lemma nodup_del {T} idx (l : list T) a : NoDup l -> NoDup (del a idx l).
Proof.
  revert a. induction l as [|x l IH]; intros a H; simpl; [constructor|]. inversion H; subst.
  destruct (memb Z.eqb (Z.of_nat a) idx); [apply IH; assumption|]. constructor; [|apply IH; assumption].
  intros G. apply del_sub in G. contradiction.
Qed.

Definition dels (l : list Z) (ivs : list (list Z)) : list Z := fold_left (fun l iv => del 0 iv l) ivs l.

(** every list is legal for what the previous ones left *)
Fixpoint legals (l : list Z) (ivs : list (list Z)) : Prop :=
  match ivs with [] => True | iv :: ivs => legal (length l) iv /\ legals (del 0 iv l) ivs end.

Lemma foldM_dels ivs : forall l, legals l ivs -> foldM np_delete l ivs = Ok (dels l ivs).
Proof.
  induction ivs as [|iv ivs IH]; intros l; simpl; [reflexivity|]. intros [H1 H2].
  rewrite (proj2 (np_delete_ok l iv (del 0 iv l) (legal_nn _ _ H1))) by auto. simpl. apply IH, H2.
Qed.

Lemma dels_sub ivs : forall l v, In v (dels l ivs) -> In v l.
Proof. induction ivs as [|iv ivs IH]; intros l v H; [exact H|]. apply IH in H. apply del_sub in H. exact H. Qed.

Lemma dels_lost ivs : forall A B v, NoDup A -> NoDup B -> aligned A B -> legals A ivs -> legals B ivs ->
  (In v A /\ ~ In v (dels A ivs)) <-> (In v B /\ ~ In v (dels B ivs)).
Proof.
  induction ivs as [|iv ivs IH]; intros A B v NA NB H LA LB.
  - simpl. tauto.
  - simpl in LA, LB. destruct LA as [LA1 LA2], LB as [LB1 LB2]. simpl.
    pose proof (aligned_lost A B iv v NA NB H LA1 LB1) as H1.
    pose proof (IH _ _ v (nodup_del iv A 0 NA) (nodup_del iv B 0 NB) (aligned_step _ _ _ H LA1 LB1) LA2 LB2) as H2.
    pose proof (del_sub iv A 0 v) as S1. pose proof (del_sub iv B 0 v) as S2.
    pose proof (dels_sub ivs (del 0 iv A) v) as S3. pose proof (dels_sub ivs (del 0 iv B) v) as S4.
    destruct (in_dec Z.eq_dec v (del 0 iv A)) as [D1|D1]; destruct (in_dec Z.eq_dec v (del 0 iv B)) as [D2|D2]; tauto.
Qed.

(** the range used by merge_invalid_indices is long enough *)
Lemma legals_enough ivs : forall l, Forall nn ivs ->
  (fold_right Z.add 0 (map zmax ivs) + Z.of_nat (length ivs) <= Z.of_nat (length l))%Z -> legals l ivs.
Proof.
  induction ivs as [|iv ivs IH]; intros l Hn H; simpl; [exact I|]. inversion Hn as [|? ? Hiv Hivs]; subst. simpl in H.
  pose proof (zmax_nonneg iv Hiv) as Hz.
  assert (Hp : (0 <= fold_right Z.add 0 (map zmax ivs))%Z).
  { clear - Hivs. induction Hivs as [|x ivs Hx H IH]; simpl; [lia|]. pose proof (zmax_nonneg x Hx). lia. }
  split.
  - intros i Hi. pose proof (zmax_ge iv i Hi). specialize (Hiv i Hi). lia.
  - apply IH; [exact Hivs|].
    assert (G : length l <= length (del 0 iv l) + (Z.to_nat (zmax iv) + 1)).
    { apply del_len_ge. intros i Hi. pose proof (zmax_ge iv i Hi). lia. }
    lia.
Qed.

Lemma aligned_arange n m : aligned (arange n) (arange m).
Proof.
  assert (E : forall a b, a <= b -> exists Y, map Z.of_nat (seq 0 b) = map Z.of_nat (seq 0 a) ++ Y).
  { intros a b H. exists (map Z.of_nat (seq a (b - a))). rewrite <- map_app, <- seq_app. f_equal. f_equal. lia. }
  unfold aligned, arange. destruct (Nat.le_ge_cases (Z.to_nat n) (Z.to_nat m)) as [H|H]; destruct (E _ _ H) as [Y HY].
  - exists (map Z.of_nat (seq 0 (Z.to_nat n))), [], Y. rewrite app_nil_r. auto.
  - exists (map Z.of_nat (seq 0 (Z.to_nat m))), Y, []. rewrite app_nil_r. auto.
Qed.

Lemma in_arange n i : In i (arange n) <-> (0 <= i < n)%Z.
Proof.
  unfold arange. rewrite in_map_iff. split.
  - intros (x & <- & Hx). apply in_seq in Hx. lia.
  - intros H. exists (Z.to_nat i). split; [lia|]. apply in_seq. lia.
Qed.

Lemma sorted_arange n : StronglySorted Z.lt (arange n).
Proof.
  unfold arange. generalize 0 as a. induction (Z.to_nat n) as [|m IH]; intros a; simpl; constructor; [apply IH|].
  apply Forall_forall. intros x Hx. apply in_map_iff in Hx as (y & <- & Hy). apply in_seq in Hy. lia.
Qed.

Lemma sorted_nodup l : StronglySorted Z.lt l -> NoDup l.
Proof.
  induction 1 as [|x l H IH Hx]; constructor; [|exact IH]. intros G. rewrite Forall_forall in Hx. apply Hx in G. lia.
Qed.

Lemma arange_len n : (0 <= n)%Z -> Z.of_nat (length (arange n)) = n.
Proof. intros H. unfold arange. rewrite map_length, seq_length. lia. Qed.

Lemma nth_arange n p : (0 <= n)%Z -> nth_error (arange n) p = if (Z.of_nat p <? n)%Z then Some (Z.of_nat p) else None.
Proof.
  intros Hn. unfold arange. destruct (Z.of_nat p <? n)%Z eqn:E.
  - apply Z.ltb_lt in E. rewrite nth_error_map, nth_error_seq. destruct (Nat.ltb_spec p (Z.to_nat n)); [reflexivity|lia].
  - apply Z.ltb_ge in E. apply nth_error_None. rewrite map_length, seq_length. lia.
Qed.

(** merging the lists gives exactly what is lost from the original range *)
Lemma merge_spec n ivs : legals (arange (Z.of_nat n)) ivs ->
  exists m, merge_invalid_indices ivs = Ok m /\ StronglySorted Z.lt m /\
    forall i, In i m <-> (0 <= i < Z.of_nat n)%Z /\ ~ In i (dels (arange (Z.of_nat n)) ivs).
Proof.
  intros L.
  assert (Hnn : Forall nn ivs).
  { revert L. generalize (arange (Z.of_nat n)). induction ivs as [|iv ivs IH]; intros l; simpl; [constructor|]. intros [H1 H2]. constructor; [eapply legal_nn, H1|eapply IH, H2]. }
  assert (Hp : (0 <= fold_right Z.add 0 (map zmax ivs) + Z.of_nat (length ivs))%Z).
  { clear - Hnn. induction Hnn as [|x ivs Hx H IH]; simpl; [lia|]. pose proof (zmax_nonneg x Hx). lia. }
  unfold merge_invalid_indices. set (M := (fold_right Z.add 0 (map zmax ivs) + Z.of_nat (length ivs))%Z) in *.
  assert (LM : legals (arange M) ivs) by (apply legals_enough; [exact Hnn|rewrite arange_len by exact Hp; reflexivity]).
  rewrite (foldM_dels _ _ LM). simpl.
  assert (Hk : legal (length (arange M)) (dels (arange M) ivs)).
  { intros i Hi. apply dels_sub, in_arange in Hi. rewrite arange_len by exact Hp. exact Hi. }
  exists (del 0 (dels (arange M) ivs) (arange M)). split.
  { apply np_delete_ok; [eapply legal_nn, Hk|auto]. }
  split; [apply del_sorted, sorted_arange|]. intros i. rewrite del_In.
  pose proof (dels_lost ivs _ _ i (sorted_nodup _ (sorted_arange (Z.of_nat n))) (sorted_nodup _ (sorted_arange M)) (aligned_arange _ _) L LM) as H.
  rewrite <- (in_arange (Z.of_nat n)), H. split.
  - intros (p & Hpi & Hni). rewrite nth_arange in Hpi by exact Hp. simpl in Hni.
    destruct (Z.of_nat p <? M)%Z eqn:E; [|discriminate]. injection Hpi as <-. apply Z.ltb_lt in E. split; [apply in_arange; lia|exact Hni].
  - intros [Hi Hni]. apply in_arange in Hi. exists (Z.to_nat i). rewrite nth_arange by exact Hp.
    destruct (Z.of_nat (Z.to_nat i) <? M)%Z eqn:E; [|apply Z.ltb_ge in E; lia].
    simpl. rewrite Z2Nat.id by lia. auto.
Qed.

(** ** The estimate rejects legal positions only *)
Lemma enum_nth {T} (l : list T) n : nth_error (enum l) n = option_map (fun x => (n, x)) (nth_error l n).
Proof.
  unfold enum. enough (H : forall l : list T, forall a n, nth_error (combine (seq a (length l)) l) n = option_map (fun x => (a + n, x)) (nth_error l n)) by apply H.
  clear. induction l as [|x l IH]; intros a n; destruct n; simpl; try reflexivity; [rewrite Nat.add_0_r; reflexivity|].
  rewrite IH. destruct (nth_error l n); simpl; [|reflexivity]. f_equal. f_equal. lia.
Qed.

Lemma enum_In {T} (l : list T) n x : In (n, x) (enum l) <-> nth_error l n = Some x.
Proof.
  split.
  - intros H. apply In_nth_error in H as [m Hm]. rewrite enum_nth in Hm. destruct (nth_error l m) eqn:E; [|discriminate].
    injection Hm as <- <-. exact E.
  - intros H. apply nth_error_In with n. rewrite enum_nth, H. reflexivity.
Qed.

Lemma nonzero_In {T} f (l : list T) i : In i (nonzero f l) <-> exists n x, i = Z.of_nat n /\ nth_error l n = Some x /\ f x = true.
Proof.
  unfold nonzero. rewrite in_map_iff. split.
  - intros ([n x] & <- & H). apply filter_In in H as [H1 H2]. apply enum_In in H1. exists n, x. auto.
  - intros (n & x & -> & H1 & H2). exists (n, x). split; [reflexivity|]. apply filter_In. split; [apply enum_In, H1|exact H2].
Qed.

Lemma nonzero_sorted {T} f (l : list T) : StronglySorted Z.lt (nonzero f l).
Proof.
  unfold nonzero, enum. generalize 0 as a. induction l as [|x l IH]; intros a; simpl; [constructor|].
  destruct (f x); simpl; [|apply IH]. constructor; [apply IH|]. apply Forall_forall. intros i Hi.
  apply in_map_iff in Hi as ([n y] & <- & Hn). apply filter_In in Hn as [Hn _]. apply in_combine_l, in_seq in Hn. simpl. lia.
Qed.

Lemma nonzero_legal {T} f (l : list T) : legal (length l) (nonzero f l).
Proof.
  intros i Hi. apply nonzero_In in Hi as (n & x & -> & Hn & _). assert (n < length l) by (apply nth_error_Some; congruence). lia.
Qed.

Lemma set_at_ok {T} (l : list T) idx v l' : nn idx -> set_at l idx v = Ok l' ->
  legal (length l) idx /\ length l' = length l /\
  forall n x, nth_error l n = Some x ->
    (In (Z.of_nat n) idx -> nth_error l' n = Some v) /\ (~ In (Z.of_nat n) idx -> nth_error l' n = Some x).
Proof.
  intros H. unfold set_at. intros E. apply bind_ok in E as ([] & E1 & [= <-]). apply check_ok in E1. apply (legal_range _ _ H) in E1.
  split; [exact E1|]. split; [rewrite map_length; unfold enum; rewrite combine_length, seq_length; lia|].
  intros n x Hx. rewrite nth_error_map, enum_nth, Hx. simpl. rewrite designated_nn by exact H.
  destruct (memb Z.eqb (Z.of_nat n) idx) eqn:M.
  - apply (memb_In _ Z.eqb_eq) in M. split; [reflexivity|contradiction].
  - assert (~ In (Z.of_nat n) idx) by (intros G; apply (memb_In _ Z.eqb_eq) in G; congruence). split; [contradiction|reflexivity].
Qed.

Lemma set_at_legal {T} (l : list T) idx v : legal (length l) idx -> exists l', set_at l idx v = Ok l'.
Proof. intros H. unfold set_at. rewrite (proj2 (legal_range _ _ (legal_nn _ _ H)) H). simpl. eauto. Qed.

Section Est.
Context {k : Kern} {St : Type}.
Implicit Types (e : list (kE k)) (b : list (kB k)) (wf : wfun k St) (st : St) (o : opts k).

Lemma solve_ok e b w z : solve (k := k) e b w = Ok z <-> weights_fit (length e) w = true /\ k_wlse k e b w = Ok z.
Proof.
  unfold solve. split.
  - intros H. apply bind_ok in H as ([] & H1 & H2). apply check_ok in H1. auto.
  - intros [H1 H2]. rewrite H1. exact H2.
Qed.

(** what one evaluation of the weights does *)
Lemma eval_weight_ok eps wf it r e b iv st w iv' st' : nn iv -> eval_weight eps wf it r e b iv st = (Ok (w, iv'), st') ->
  exists r' w0, legal (length r) iv /\ length r' = length r /\
    (forall n x, nth_error r n = Some x ->
       (In (Z.of_nat n) iv -> nth_error r' n = Some (k_nan k)) /\ (~ In (Z.of_nat n) iv -> nth_error r' n = Some x)) /\
    wf it r' e b iv st = (Ok w0, st') /\
    match w0, w with
    | None, None => iv' = iv
    | Some w0, Some w =>
        legal (length w0) iv /\ length w = length w0 /\
        (forall n x, nth_error w0 n = Some x ->
           (In (Z.of_nat n) iv -> nth_error w n = Some (k_zero k)) /\ (~ In (Z.of_nat n) iv -> nth_error w n = Some x)) /\
        iv' = nonzero (k_small k eps) w
    | _, _ => False
    end.
Proof.
  intros Hn. unfold eval_weight. destruct (set_at r iv (k_nan k)) as [r'|x] eqn:E; [|discriminate].
  apply set_at_ok in E as (L & Hl & Hr); [|exact Hn].
  destruct (wf it r' e b iv st) as [[w0|x] st1] eqn:Ew; simpl; [|discriminate].
  destruct w0 as [w0|].
  - destruct (set_at w0 iv (k_zero k)) as [w1|x] eqn:E; simpl; [|discriminate]. intros [= <- <- <-].
    apply set_at_ok in E as (L' & Hl' & Hw); [|exact Hn]. exists r', (Some w0). auto 10.
  - intros [= <- <- <-]. exists r', None. auto 10.
Qed.

Lemma fit_legal e w iv : length e <> 0 -> weights_fit (k := k) (length e) (Some w) = true -> legal (length w) iv -> legal (length e) iv.
Proof.
  intros He Hf Hl i Hi. apply Hl in Hi. simpl in Hf. apply orb_true_iff in Hf as [Hf|Hf]; apply Nat.eqb_eq in Hf; lia.
Qed.

Lemma iterate_legal o wf e b fuel : forall it r iv v st z iv' st', length e <> 0 -> legal (length e) iv ->
  iterate o wf e b fuel it r iv v st = (Ok (z, iv'), st') -> legal (length e) iv'.
Proof.
  induction fuel as [|fuel IH]; intros it r iv v st z iv' st' He Hiv; simpl; [discriminate|].
  destruct (eval_weight (o_eps o) wf it r e b iv st) as [[[w iv1]|x] st1] eqn:E; [|discriminate].
  destruct (solve e b w) as [z1|x] eqn:Es; [|discriminate]. apply solve_ok in Es as [Hf _].
  assert (Hiv1 : legal (length e) iv1).
  { apply eval_weight_ok in E as (r' & w0 & _ & _ & _ & _ & Hw); [|eapply legal_nn, Hiv].
    destruct w0 as [w0|], w as [w|]; try contradiction; [|subst; exact Hiv].
    destruct Hw as (_ & _ & _ & ->). eapply fit_legal; [exact He|exact Hf|apply nonzero_legal]. }
  destruct (converged _ _ _).
  - intros [= <- <- <-]. exact Hiv1.
  - apply IH; [exact He|exact Hiv1].
Qed.

Lemma m_estimate_legal o e b z0 ow iv st z iv' st' : length e <> 0 -> legal (length e) iv ->
  m_estimate o e b z0 ow iv st = (Ok (z, iv'), st') -> legal (length e) iv'.
Proof.
  intros He Hiv. unfold m_estimate. destruct ow as [wf|].
  - destruct z0 as [z0|]; [|discriminate]. apply iterate_legal; assumption.
  - intros [= H <-]. apply bind_ok in H as (w & H1 & H). apply bind_ok in H as (z1 & H2 & [= <- <-]). exact Hiv.
Qed.

(** ** The chain follows the original rows *)
Lemma chain_steps o e b ws : forall rows e1 b1 z ii st zf l st',
  StronglySorted lt rows -> pick e rows e1 -> pick b rows b1 -> legal (length rows) ii ->
  chain o e1 b1 ws z ii st = (Ok (zf, l), st') ->
  exists left, steps o e b rows z ii ws st zf left st' /\ legals (map Z.of_nat rows) l /\ dels (map Z.of_nat rows) l = map Z.of_nat left.
Proof.
  induction ws as [|w ws IH]; intros rows e1 b1 z ii st zf l st' Hs He Hb Hii; simpl.
  - intros [= <- <- <-]. exists (del 0 ii rows). split; [constructor; apply del_remain, Hs|].
    simpl. rewrite map_length, del_map. auto.
  - pose proof (legal_nn _ _ Hii) as Hn.
    destruct (bind (eliminate e1 ii) _) as [[e2 b2]|x] eqn:E; [|discriminate].
    apply bind_ok in E as (e2' & E1 & E). apply bind_ok in E as (b2' & E2 & E). apply bind_ok in E as ([] & E3 & [= -> ->]).
    apply check_ok in E3. apply (eliminate_ok _ _ _ Hn) in E1 as [_ ->]. apply (eliminate_ok _ _ _ Hn) in E2 as [_ ->].
    set (rows' := del 0 ii rows). pose proof (del_pick _ _ _ ii 0 He) as He'. pose proof (del_pick _ _ _ ii 0 Hb) as Hb'.
    fold rows' in He', Hb'. pose proof (pick_length _ _ _ He') as Hl.
    destruct (m_estimate o (del 0 ii e1) (del 0 ii b1) z w [] st) as [[[z' ii']|x] st1] eqn:Em; [|discriminate].
    assert (Hne : length (del 0 ii e1) <> 0) by (intros G; rewrite G in E3; discriminate).
    assert (Hii' : legal (length rows') ii').
    { rewrite <- Hl. eapply m_estimate_legal; [exact Hne| |exact Em]. intros i []. }
    destruct (chain o _ _ ws (Some z') ii' st1) as [[[z2 l2]|x] st2] eqn:Ec; simpl; [|discriminate].
    intros [= <- <- <-].
    destruct (IH rows' _ _ _ _ _ _ _ _ (del_sorted _ ii rows 0 Hs) He' Hb' Hii' Ec) as (left & H1 & H2 & H3).
    exists left. split.
    + econstructor; [apply del_remain, Hs| |exact He'|exact Hb'|exact Em|exact H1].
      fold rows'. intros G. rewrite G in Hl. simpl in Hl. lia.
    + simpl. rewrite map_length, del_map. auto.
Qed.

Lemma each_output_spec o b ws outs : forall inits ivs st rs st',
  length inits = length outs -> length ivs = length outs ->
  Forall (fun e => length e = length b) outs ->
  (forall iv, In (Ok iv) ivs -> legal (length b) iv) ->
  each_output o b ws outs inits ivs st = (Ok rs, st') ->
  Forall2 (fun p r => exists e z0 iv st1 st2 left, p = ((e, z0), Ok iv) /\
      steps o e b (seq 0 (length b)) z0 iv ws st1 (fst r) left st2 /\ complement (length b) left (snd r))
    (combine (combine outs inits) ivs) rs.
Proof.
  induction outs as [|e outs IH]; intros inits ivs st rs st' H1 H2 Hl Hiv.
  - intros [= <- <-]. constructor.
  - destruct inits as [|z0 inits]; [discriminate|]. destruct ivs as [|iv ivs]; [discriminate|]. simpl.
    destruct iv as [iv|x]; [|discriminate]. inversion Hl as [|? ? Hle Hlo]; subst.
    destruct (chain o e b ws z0 iv st) as [[[z l]|x] st1] eqn:Ec; simpl; [|discriminate].
    assert (Hl0 : legal (length (seq 0 (length b))) iv) by (rewrite seq_length; apply Hiv; left; reflexivity).
    pose proof (pick_all e) as Pe. rewrite Hle in Pe.
    destruct (chain_steps o e b ws _ _ _ _ _ _ _ _ _ (sorted_seq 0 (length b)) Pe (pick_all b) Hl0 Ec) as (left & S1 & S2 & S3).
    assert (A : map Z.of_nat (seq 0 (length b)) = arange (Z.of_nat (length b))) by (unfold arange; rewrite Nat2Z.id; reflexivity).
    rewrite A in S2, S3.
    destruct (merge_spec _ _ S2) as (m & Hm & Hsort & Hin). rewrite Hm. simpl.
    destruct (each_output o b ws outs inits ivs st1) as [[rs1|x] st2] eqn:Ee; simpl; [|discriminate].
    intros [= <- <-]. constructor.
    + exists e, z0, iv, st, st1, left. simpl. split; [reflexivity|]. split; [exact S1|]. split; [exact Hsort|].
      intros i. rewrite Hin, S3. split; intros [G1 G2]; (split; [exact G1|]); intros G; apply G2.
      * apply in_map_iff. exists (Z.to_nat i). split; [lia|exact G].
      * apply in_map_iff in G as (x & Hx & Gx). replace (Z.to_nat i) with x by lia. exact Gx.
    + eapply IH; [simpl in H1; congruence|simpl in H2; congruence|exact Hlo| |exact Ee].
      intros iv0 H0. apply Hiv. right. exact H0.
Qed.
End Est.
