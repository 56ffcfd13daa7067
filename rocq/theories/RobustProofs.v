(** Lemmas about medians and robust weights. *)
From Coq Require Import Reals Lra.
From Coquelicot Require Import Complex.
From Verif Require Import Base BaseLemmas RobustModel SpecRobust.
Open Scope R_scope.

Lemma Rltb_false x y : Rltb y x = false <-> x <= y.
Proof. unfold Rltb. destruct (Rlt_dec y x); split; intros H; try discriminate; try lra; reflexivity. Qed.

Lemma SS_impl {A} (P Q : A -> A -> Prop) l : (forall x y, P x y -> Q x y) -> StronglySorted P l -> StronglySorted Q l.
Proof.
  intros H. induction 1; constructor; [assumption|].
  eapply Forall_impl; [|eassumption]. cbv beta. auto.
Qed.

Lemma rsort_sorted l : StronglySorted Rle (stable_sort Rltb l).
Proof.
  apply (SS_impl (fun x y => Rltb y x = false)); [intros x y; apply Rltb_false|].
  apply (sort_sorted Rltb (fun _ => True)).
  - intros x y _ _ H. apply Rltb_false. unfold Rltb in H. destruct (Rlt_dec x y); [lra|discriminate].
  - intros x y z _ _ _ H1 H2. apply Rltb_false in H1, H2. apply Rltb_false. lra.
  - apply Forall_forall. auto.
Qed.

Lemma rsorted_unique l1 l2 : Permutation l1 l2 -> StronglySorted Rle l1 -> StronglySorted Rle l2 -> l1 = l2.
Proof.
  intros P S1 S2. apply (sorted_perm_unique Rltb); [exact P| | |].
  - eapply SS_impl; [|exact S1]. intros x y. apply Rltb_false.
  - eapply SS_impl; [|exact S2]. intros x y. apply Rltb_false.
  - intros x y _ _ H1 H2. apply Rltb_false in H1, H2. lra.
Qed.

Lemma median_unique l m m' : median_of l m -> median_of l m' -> m = m'.
Proof.
  intros (s & P & S & H) (s' & P' & S' & H').
  assert (s = s') by (apply rsorted_unique; [rewrite <- P; exact P'|assumption..]). subst s'.
  destruct H as [(k & L & N)|(k & x & y & L & N1 & N2 & E)], H' as [(k' & L' & N')|(k' & x' & y' & L' & N1' & N2' & E')]; try lia.
  - assert (k = k') by lia. subst. congruence.
  - assert (k = k') by lia. subst. congruence.
Qed.

Lemma median_perm l l' m : Permutation l l' -> median_of l m -> median_of l' m.
Proof. intros P (s & P' & R). exists s. split; [rewrite <- P; exact P'|exact R]. Qed.

Lemma median_exists l : l <> [] -> exists m, median_of l m.
Proof.
  intros Hl. set (s := stable_sort Rltb l).
  assert (L : length s = length l) by apply sort_length.
  assert (Hn : (0 < length s)%nat) by (rewrite L; destruct l; [congruence|simpl; lia]).
  destruct (Nat.Even_Odd_dec (length s)) as [[k E]|[k E]].
  - destruct (nth_error s (k - 1)) as [x|] eqn:N1; [|apply nth_error_None in N1; lia].
    destruct (nth_error s (S (k - 1))) as [y|] eqn:N2; [|apply nth_error_None in N2; lia].
    exists ((x + y) / 2), s. split; [apply sort_perm|]. split; [apply rsort_sorted|]. right.
    exists (k - 1)%nat, x, y. repeat split; auto. lia.
  - destruct (nth_error s k) as [x|] eqn:N1; [|apply nth_error_None in N1; lia].
    exists x, s. split; [apply sort_perm|]. split; [apply rsort_sorted|]. left. exists k. split; [lia|assumption].
Qed.

Lemma nanmedian_none l : somes l = [] -> nanmedian l = None.
Proof. intros H. unfold nanmedian. rewrite H. reflexivity. Qed.

Lemma nanmedian_some l : somes l <> [] -> exists m, nanmedian l = Some m /\ median_of (somes l) m.
Proof.
  intros Hl. unfold nanmedian. set (s := stable_sort Rltb (somes l)). cbv zeta.
  assert (L : length s = length (somes l)) by apply sort_length.
  assert (Hn : (0 < length s)%nat) by (rewrite L; destruct (somes l); [congruence|simpl; lia]).
  destruct (length s) as [|n0] eqn:En; [lia|]. rewrite <- En.
  destruct (Nat.even (length s)) eqn:Ev.
  - apply Nat.even_spec in Ev as [k E]. rewrite E, Nat.div2_double.
    eexists. split; [reflexivity|]. exists s. split; [apply sort_perm|]. split; [apply rsort_sorted|]. right.
    exists (k - 1)%nat, (nth (k - 1) s 0), (nth k s 0). split; [lia|].
    split; [apply nth_error_nth'; lia|]. split; [replace (S (k - 1)) with k by lia; apply nth_error_nth'; lia|reflexivity].
  - assert (Od : Nat.odd (length s) = true) by (unfold Nat.odd; rewrite Ev; reflexivity).
    apply Nat.odd_spec in Od as [k E]. rewrite E.
    replace (2 * k + 1)%nat with (S (2 * k)) by lia. rewrite Nat.div2_succ_double.
    eexists. split; [reflexivity|]. exists s. split; [apply sort_perm|]. split; [apply rsort_sorted|]. left.
    exists k. split; [lia|apply nth_error_nth'; lia].
Qed.

Lemma somes_map {A B} (f : A -> B) l : somes (map (option_map f) l) = map f (somes l).
Proof. unfold somes. induction l as [|[x|] l IH]; simpl; [reflexivity| |assumption]. f_equal. exact IH. Qed.

Lemma numbers_somes {A} (r : list (option A)) l : numbers r l <-> l = somes r.
Proof.
  unfold numbers, somes. revert l. induction r as [|[x|] r IH]; intros l; simpl.
  - destruct l; simpl; split; intros; congruence.
  - destruct l as [|y l]; simpl; [split; discriminate|]. split; intros H.
    + injection H as -> H. f_equal. apply IH. exact H.
    + injection H as -> H. f_equal. apply IH. exact H.
  - apply IH.
Qed.

Lemma mad_spec l : somes l <> [] -> exists d, median_absolute_deviation l = Some d /\ mad_of (somes l) d.
Proof.
  intros H. destruct (nanmedian_some l H) as (m & E & M).
  unfold median_absolute_deviation. rewrite E.
  destruct (nanmedian_some (map (option_map (fun x => Rabs (x - m))) l)) as (d & Ed & D).
  { rewrite somes_map. destruct (somes l); [congruence|discriminate]. }
  rewrite Ed. rewrite somes_map in D. exists d. split; [reflexivity|]. exists m. auto.
Qed.

Lemma mad_unique l d d' : mad_of l d -> mad_of l d' -> d = d'.
Proof.
  intros (m & M & D) (m' & M' & D'). rewrite (median_unique _ _ _ M' M) in D'. exact (median_unique _ _ _ D D').
Qed.

Lemma sigma_pos : 0 < sigma_mad. Proof. unfold sigma_mad. lra. Qed.

Lemma scale_spec r s : scale_of r s -> mad_scale (vnorm r) = Some s.
Proof.
  intros (l & d & N & M & E). apply numbers_somes in N. subst l.
  assert (Hs : somes (vnorm r) = map Cmod (somes r)) by apply somes_map.
  destruct (mad_spec (vnorm r)) as (d' & Ed & D).
  { rewrite Hs. intros H. apply map_eq_nil in H. rewrite H in M. destruct M as (m & (s' & P & _ & H') & _).
    apply Permutation_nil in P. subst s'. simpl in H'. destruct H' as [(k & L & _)|(k & x & y & L & _)]; lia. }
  rewrite Hs in D. rewrite (mad_unique _ _ _ M D) in E.
  unfold mad_scale. rewrite Ed. simpl. f_equal. rewrite <- E. pose proof sigma_pos. unfold sigma_mad in *. field.
Qed.

Lemma scale_exists r : (exists z, In (Some z) r) -> exists s, scale_of r s.
Proof.
  intros (z & Hz).
  assert (Hs : somes (vnorm r) = map Cmod (somes r)) by apply somes_map.
  destruct (mad_spec (vnorm r)) as (d & _ & D).
  { rewrite Hs. assert (In z (somes r)) by (unfold somes; apply in_flat_map; exists (Some z); simpl; auto).
    destruct (somes r); [contradiction|discriminate]. }
  rewrite Hs in D. exists (d / (44845 / 100000)), (somes r), d. split; [apply numbers_somes; reflexivity|]. split; [exact D|]. field.
Qed.

Lemma scale_unique r s s' : scale_of r s -> scale_of r s' -> s = s'.
Proof. intros H H'. apply scale_spec in H, H'. congruence. Qed.

Lemma scale_none r : (forall z, ~ In (Some z) r) -> mad_scale (vnorm r) = None.
Proof.
  intros H. unfold mad_scale, median_absolute_deviation. rewrite nanmedian_none; [reflexivity|].
  unfold vnorm. rewrite somes_map. destruct (somes r) as [|z l] eqn:E; [reflexivity|]. exfalso.
  assert (In z (somes r)) by (rewrite E; left; reflexivity).
  unfold somes in H0. apply in_flat_map in H0 as ([x|] & Hx & Hz); [|contradiction]. destruct Hz as [->|[]]. apply (H z Hx).
Qed.

(** ** order *)
Lemma SS_nth (l : list R) : StronglySorted Rle l -> forall i j x y, (i <= j)%nat -> nth_error l i = Some x -> nth_error l j = Some y -> x <= y.
Proof.
  induction 1 as [|a l S IH F]; intros [|i] [|j] x y Hij Hi Hj; try discriminate; simpl in *; try lia.
  - injection Hi as ->. injection Hj as ->. lra.
  - injection Hi as ->. rewrite Forall_forall in F. apply F. eapply nth_error_In; eassumption.
  - apply (IH i j); auto. lia.
Qed.

(** the number of entries satisfying [p] among a split list *)
Lemma filter_len_app {A} (p : A -> bool) l l' : length (filter p (l ++ l')) = (length (filter p l) + length (filter p l'))%nat.
Proof. rewrite filter_app, app_length. reflexivity. Qed.
Lemma filter_len_le {A} (p : A -> bool) l : (length (filter p l) <= length l)%nat.
Proof. induction l as [|x l IH]; simpl; [lia|]. destruct (p x); simpl; lia. Qed.
Lemma filter_len_all {A} (p : A -> bool) l : Forall (fun x => p x = true) l -> length (filter p l) = length l.
Proof. induction 1 as [|x l H _ IH]; simpl; [reflexivity|]. rewrite H. simpl. lia. Qed.
Lemma filter_len_none {A} (p : A -> bool) l : (forall x, In x l -> p x = false) -> length (filter p l) = 0%nat.
Proof. induction l as [|x l IH]; simpl; intros H; [reflexivity|]. rewrite H by auto. apply IH. auto. Qed.
Lemma filter_len_perm {A} (p : A -> bool) l l' : Permutation l l' -> length (filter p l) = length (filter p l').
Proof. induction 1; simpl; repeat match goal with |- context [p ?x] => destruct (p x) end; simpl; lia. Qed.

Lemma skipn_nth {A} (l : list A) k x : In x (skipn k l) -> exists i, (k <= i)%nat /\ nth_error l i = Some x.
Proof.
  revert l. induction k as [|k IH]; intros l H; simpl in H.
  - apply In_nth_error in H as [i H]. exists i. split; [lia|exact H].
  - destruct l as [|y l]; [contradiction|]. apply IH in H as (i & Hi & H). exists (S i). split; [lia|exact H].
Qed.
Lemma firstn_nth {A} (l : list A) k x : In x (firstn k l) -> exists i, (i < k)%nat /\ nth_error l i = Some x.
Proof.
  revert l. induction k as [|k IH]; intros [|y l] H; simpl in H; try contradiction.
  destruct H as [->|H]; [exists 0%nat; split; [lia|reflexivity]|].
  apply IH in H as (i & Hi & H). exists (S i). split; [lia|exact H].
Qed.

Lemma median_within l m a b : mostly_within l a b -> median_of l m -> a <= m <= b.
Proof.
  intros (ins & out & P & Hl & F) (s & Ps & Ss & H).
  assert (Ls : length s = (length ins + length out)%nat).
  { rewrite <- (Permutation_length Ps), (Permutation_length P), app_length. reflexivity. }
  assert (C : forall p, Forall (fun x => p x = true) ins -> (length ins <= length (filter p s))%nat).
  { intros p Fp. rewrite <- (filter_len_perm p _ _ Ps), (filter_len_perm p _ _ P), filter_len_app, (filter_len_all p ins Fp). lia. }
  assert (Up : forall k x, nth_error s k = Some x -> b < x -> (length ins <= k)%nat).
  { intros k x Hk Hx. set (p := fun y => if Rle_dec y b then true else false).
    assert (Fp : Forall (fun x => p x = true) ins).
    { apply Forall_forall. intros y Hy. rewrite Forall_forall in F. specialize (F y Hy). unfold p. destruct (Rle_dec y b); [reflexivity|lra]. }
    specialize (C p Fp). rewrite <- (firstn_skipn k s), filter_len_app in C.
    rewrite (filter_len_none p (skipn k s)) in C.
    - pose proof (filter_len_le p (firstn k s)). pose proof (firstn_le_length k s). lia.
    - intros y Hy. apply skipn_nth in Hy as (i & Hi & Hy). pose proof (SS_nth s Ss k i x y Hi Hk Hy).
      unfold p. destruct (Rle_dec y b); [lra|reflexivity]. }
  assert (Lo : forall k x, nth_error s k = Some x -> x < a -> (length ins + S k <= length s)%nat).
  { intros k x Hk Hx. set (p := fun y => if Rle_dec a y then true else false).
    assert (Fp : Forall (fun x => p x = true) ins).
    { apply Forall_forall. intros y Hy. rewrite Forall_forall in F. specialize (F y Hy). unfold p. destruct (Rle_dec a y); [reflexivity|lra]. }
    specialize (C p Fp). rewrite <- (firstn_skipn (S k) s), filter_len_app in C.
    rewrite (filter_len_none p (firstn (S k) s)) in C.
    - pose proof (filter_len_le p (skipn (S k) s)). rewrite skipn_length in H0.
      assert (k < length s)%nat by (apply nth_error_Some; congruence). lia.
    - intros y Hy. apply firstn_nth in Hy as (i & Hi & Hy). pose proof (SS_nth s Ss i k y x ltac:(lia) Hy Hk).
      unfold p. destruct (Rle_dec a y); [lra|reflexivity]. }
  destruct H as [(k & L & N)|(k & x & y & L & N1 & N2 & ->)].
  - split; apply Rnot_lt_le; intros Hm.
    + pose proof (Lo k m N Hm). lia.
    + pose proof (Up k m N Hm). lia.
  - pose proof (SS_nth s Ss k (S k) x y ltac:(lia) N1 N2). split; apply Rnot_lt_le; intros Hm.
    + pose proof (Lo k x N1 ltac:(lra)). lia.
    + pose proof (Up (S k) y N2 ltac:(lra)). lia.
Qed.

Lemma mad_within l d a b : mostly_within l a b -> mad_of l d -> 0 <= d <= b - a.
Proof.
  intros W (m & M & D). pose proof (median_within l m a b W M) as Hm. destruct W as (ins & out & P & Hl & F).
  apply (median_within _ d 0 (b - a)) in D; [lra|].
  exists (map (fun x => Rabs (x - m)) ins), (map (fun x => Rabs (x - m)) out). rewrite <- map_app, !map_length.
  split; [apply Permutation_map; exact P|]. split; [exact Hl|].
  apply Forall_forall. intros y Hy. apply in_map_iff in Hy as (x & <- & Hx). rewrite Forall_forall in F. specialize (F x Hx).
  split; [apply Rabs_pos|]. apply Rabs_le. lra.
Qed.

Lemma median_ge l m a : Forall (fun x => a <= x) l -> median_of l m -> a <= m.
Proof.
  intros F (s & P & _ & H). rewrite Forall_forall in F.
  assert (I : forall k x, nth_error s k = Some x -> a <= x).
  { intros k x E. apply F. apply Permutation_in with s; [symmetry; exact P|]. eapply nth_error_In; eassumption. }
  destruct H as [(k & _ & N)|(k & x & y & _ & N1 & N2 & ->)]; [apply (I k); exact N|].
  pose proof (I _ _ N1). pose proof (I _ _ N2). lra.
Qed.
Lemma mad_nonneg l d : mad_of l d -> 0 <= d.
Proof.
  intros (m & _ & D). apply (median_ge _ d 0) in D; [exact D|]. apply Forall_forall. intros y Hy.
  apply in_map_iff in Hy as (x & <- & _). apply Rabs_pos.
Qed.
Lemma scale_nonneg r s : scale_of r s -> 0 <= s.
Proof. intros (l & d & _ & M & E). apply mad_nonneg in M. nra. Qed.

(** ** rescaling *)
Lemma SS_map {A B} (P : A -> A -> Prop) (Q : B -> B -> Prop) (f : A -> B) l : (forall x y, P x y -> Q (f x) (f y)) -> StronglySorted P l -> StronglySorted Q (map f l).
Proof.
  intros H. induction 1 as [|x l S IH F]; simpl; constructor; [assumption|].
  apply Forall_forall. intros y Hy. apply in_map_iff in Hy as (z & <- & Hz). rewrite Forall_forall in F. auto.
Qed.
Lemma median_scale l m c : 0 <= c -> median_of l m -> median_of (map (Rmult c) l) (c * m).
Proof.
  intros Hc (s & P & S & H). exists (map (Rmult c) s). split; [apply Permutation_map; exact P|].
  split; [apply (SS_map Rle); [|exact S]; intros x y; nra|]. rewrite map_length.
  destruct H as [(k & L & N)|(k & x & y & L & N1 & N2 & ->)].
  - left. exists k. split; [exact L|]. rewrite nth_error_map, N. reflexivity.
  - right. exists k, (c * x), (c * y). rewrite !nth_error_map, N1, N2. repeat split; auto. field.
Qed.
Lemma mad_scaled l d c : 0 <= c -> mad_of l d -> mad_of (map (Rmult c) l) (c * d).
Proof.
  intros Hc (m & M & D). exists (c * m). split; [apply median_scale; assumption|].
  replace (map (fun x => Rabs (x - c * m)) (map (Rmult c) l)) with (map (Rmult c) (map (fun x => Rabs (x - m)) l)).
  - apply median_scale; assumption.
  - rewrite !map_map. apply map_ext. intros x. rewrite <- (Rabs_pos_eq c) at 1 by exact Hc. rewrite <- Rabs_mult. f_equal. ring.
Qed.
Lemma scale_scaled r s c : scale_of r s -> scale_of (map (option_map (Cmult c)) r) (Cmod c * s).
Proof.
  intros (l & d & N & M & E). exists (map (Cmult c) l), (Cmod c * d). apply numbers_somes in N. subst l.
  split; [apply numbers_somes; symmetry; apply somes_map|]. split.
  - replace (map Cmod (map (Cmult c) (somes r))) with (map (Rmult (Cmod c)) (map Cmod (somes r))).
    + apply mad_scaled; [apply Cmod_ge_0|exact M].
    + rewrite !map_map. apply map_ext. intros x. symmetry. apply Cmod_mult.
  - rewrite <- E. ring.
Qed.
Lemma somes_perm {A} (r r' : list (option A)) : Permutation r r' -> Permutation (somes r) (somes r').
Proof. intros P. unfold somes. apply Permutation_flat_map. exact P. Qed.
Lemma scale_perm r r' s : Permutation r r' -> scale_of r s -> scale_of r' s.
Proof.
  intros P (l & d & N & M & E). apply numbers_somes in N. subst l. exists (somes r'), d.
  split; [apply numbers_somes; reflexivity|]. split; [|exact E].
  destruct M as (m & M & D). pose proof (Permutation_map Cmod (somes_perm _ _ P)) as Pm.
  exists m. split; [exact (median_perm _ _ _ Pm M)|]. exact (median_perm _ _ _ (Permutation_map _ Pm) D).
Qed.
