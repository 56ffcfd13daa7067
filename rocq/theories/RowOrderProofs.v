(** The estimation on the same rows in two orders. The rows are named by numbers:
    a list of values, one per row, is a function of the name mapped over the list
    of the names in the order of the rows. *)
From Verif Require Import Base BaseLemmas Arith MestModel SpecMest MestProofs SimProofs SpecFull.

(** the positions of [iv] are those of the names that [J] selects *)
Definition marks (ids : list nat) (iv : list Z) (J : nat -> bool) : Prop :=
  legal (length ids) iv /\ forall n i, nth_error ids n = Some i -> (In (Z.of_nat n) iv <-> J i = true).

Definition wmap {T} (W : option (nat -> T)) (ids : list nat) : option (list T) := option_map (fun f => map f ids) W.

Lemma marks_del {T} (f : nat -> T) ids iv J : marks ids iv J -> del 0 iv (map f ids) = map f (filter (fun i => negb (J i)) ids).
Proof.
  intros [_ H]. rewrite del_map. f_equal.
  assert (G : forall n i, nth_error ids n = Some i -> (In (Z.of_nat (0 + n)) iv <-> J i = true)) by exact H.
  clear H. revert G. generalize 0. induction ids as [|i ids IH]; intros a G; [reflexivity|]. simpl.
  rewrite (IH (S a)) by (intros n j Hn; rewrite Nat.add_succ_comm; apply (G (S n)), Hn).
  pose proof (G 0 i eq_refl) as G0. rewrite Nat.add_0_r in G0.
  destruct (memb Z.eqb (Z.of_nat a) iv) eqn:M; destruct (J i) eqn:EJ; try reflexivity; exfalso.
  - apply (memb_In _ Z.eqb_eq) in M. apply G0 in M. discriminate.
  - assert (In (Z.of_nat a) iv) as I by (apply G0; reflexivity). apply (memb_In _ Z.eqb_eq) in I. congruence.
Qed.

Lemma marks_eliminate {T} (f : nat -> T) ids iv J : marks ids iv J ->
  eliminate (map f ids) iv = Ok (map f (filter (fun i => negb (J i)) ids)).
Proof.
  intros M. apply (eliminate_ok _ _ _ (legal_nn _ _ (proj1 M))). split; [rewrite map_length; apply M|].
  symmetry. apply marks_del, M.
Qed.

Lemma marks_set {T} (f : nat -> T) ids iv J v : marks ids iv J ->
  set_at (map f ids) iv v = Ok (map (fun i => if J i then v else f i) ids).
Proof.
  intros [L H]. unfold set_at. rewrite map_length.
  rewrite (proj2 (legal_range _ _ (legal_nn _ _ L)) L). cbn [check bind]. apply (f_equal Ok).
  rewrite enum_map, map_map. cbn [fst snd].
  assert (D : forall n i, nth_error ids n = Some i -> designated (length ids) iv n = J i).
  { intros n i Hn. rewrite (designated_nn _ _ _ (legal_nn _ _ L)). apply H in Hn.
    destruct (memb Z.eqb (Z.of_nat n) iv) eqn:M; destruct (J i); try reflexivity; exfalso.
    - apply (memb_In _ Z.eqb_eq) in M. apply Hn in M. discriminate.
    - assert (In (Z.of_nat n) iv) as I by (apply Hn; reflexivity). apply (memb_In _ Z.eqb_eq) in I. congruence. }
  apply nth_error_ext. intros n. rewrite !nth_error_map, enum_nth. destruct (nth_error ids n) as [i|] eqn:E; [|reflexivity].
  simpl. rewrite (D n i E). reflexivity.
Qed.

Lemma marks_nonzero {T} (f : T -> bool) (W : nat -> T) ids : marks ids (nonzero f (map W ids)) (fun i => f (W i)).
Proof.
  split; [rewrite <- (map_length W); apply nonzero_legal|].
  intros n i Hn. rewrite nonzero_In. split.
  - intros (m & x & E & Hm & Hf). apply Nat2Z.inj in E. subst m. rewrite nth_error_map, Hn in Hm. injection Hm as <-. exact Hf.
  - intros Hf. exists n, (W i). rewrite nth_error_map, Hn. auto.
Qed.

Lemma marks_nil ids : marks ids [] (fun _ => false).
Proof. split; [intros i []|]. intros n i _. split; [intros []|discriminate]. Qed.

Lemma perm_filter {T} (f : T -> bool) l l' : Permutation l l' -> Permutation (filter f l) (filter f l').
Proof.
  induction 1 as [|x l l' H IH|x y l|l l' l'' H1 IH1 H2 IH2]; simpl; [constructor| | |eapply Permutation_trans; eassumption].
  - destruct (f x); [constructor|]; exact IH.
  - destruct (f x), (f y); try apply Permutation_refl. constructor.
Qed.

Section Order.
Context {k : Kern} {St : Type}.
Notation E := (kE k).
Notation B := (kB k).
Notation Z' := (kZ k).

(** the rows that are considered *)
Variable okB : B -> Prop.
Variable resid1 : E -> B -> Z' -> kR k.
Hypothesis wlse_order : forall (e : nat -> E) (b : nat -> B) W ids ids', (forall i, okB (b i)) -> Permutation ids ids' ->
  k_wlse k (map e ids') (map b ids') (wmap W ids') = k_wlse k (map e ids) (map b ids) (wmap W ids).
Hypothesis resid_rows : forall (e : nat -> E) (b : nat -> B) ids z, (forall i, okB (b i)) -> k_resid k (map e ids) (map b ids) z = map (fun i => resid1 (e i) (b i) z) ids.
Hypothesis wres_order : forall (r : nat -> kR k) W ids ids', Permutation ids ids' ->
  k_wres k (map r ids') (wmap W ids') = k_wres k (map r ids) (wmap W ids).

(** two calls of the weight function *)
Definition worder (wf : wfun k St) : Prop := exists RS : list nat -> list nat -> St -> St -> Prop,
  forall (e : nat -> E) (b : nat -> B) (r : nat -> kR k) it ids ids' J iv iv' st st',
  (forall i, okB (b i)) -> Permutation ids ids' -> marks ids iv J -> marks ids' iv' J -> it = 0 \/ RS ids ids' st st' ->
  exists rw, fst (wf it (map r ids) (map e ids) (map b ids) iv st) = rmap (fun W => wmap W ids) rw /\
    fst (wf it (map r ids') (map e ids') (map b ids') iv' st') = rmap (fun W => wmap W ids') rw /\
    match rw with
    | Ok _ => RS ids ids' (snd (wf it (map r ids) (map e ids) (map b ids) iv st)) (snd (wf it (map r ids') (map e ids') (map b ids') iv' st'))
    | Err _ => True
    end.

(** two results of an estimation *)
Definition ends (ids ids' : list nat) (a a' : res (Z' * list Z)) : Prop :=
  match a, a' with
  | Ok (z, iv), Ok (z', iv') => z' = z /\ exists J, marks ids iv J /\ marks ids' iv' J
  | Err x, Err x' => x' = x
  | _, _ => False
  end.

Variables (e : nat -> E) (b : nat -> B).
Hypothesis Hb : forall i, okB (b i).

Lemma fit_order W ids ids' : Permutation ids ids' ->
  weights_fit (k := k) (length ids') (wmap W ids') = weights_fit (k := k) (length ids) (wmap W ids).
Proof. intros P. destruct W; simpl; [|reflexivity]. rewrite !map_length, (Permutation_length P). reflexivity. Qed.

Lemma solve_order W ids ids' : Permutation ids ids' ->
  solve (k := k) (map e ids') (map b ids') (wmap W ids') = solve (map e ids) (map b ids) (wmap W ids).
Proof. intros P. unfold solve. rewrite !map_length, (fit_order W ids ids' P), (wlse_order e b W ids ids' Hb P). reflexivity. Qed.

Lemma iterate_order o wf (RS : list nat -> list nat -> St -> St -> Prop) ids ids' : Permutation ids ids' ->
  (forall r it J iv iv' st st', marks ids iv J -> marks ids' iv' J -> it = 0 \/ RS ids ids' st st' ->
    exists rw, fst (wf it (map r ids) (map e ids) (map b ids) iv st) = rmap (fun W => wmap W ids) rw /\
    fst (wf it (map r ids') (map e ids') (map b ids') iv' st') = rmap (fun W => wmap W ids') rw /\
    match rw with
    | Ok _ => RS ids ids' (snd (wf it (map r ids) (map e ids) (map b ids) iv st)) (snd (wf it (map r ids') (map e ids') (map b ids') iv' st'))
    | Err _ => True
    end) ->
  forall fuel it r iv iv' J prev st st', marks ids iv J -> marks ids' iv' J -> it = 0 \/ RS ids ids' st st' ->
  ends ids ids' (fst (iterate o wf (map e ids) (map b ids) fuel it (map r ids) iv prev st))
    (fst (iterate o wf (map e ids') (map b ids') fuel it (map r ids') iv' prev st')).
Proof.
  intros P W. induction fuel as [|fuel IH]; intros it r iv iv' J prev st st' M M' R; [reflexivity|].
  cbn [iterate]. unfold eval_weight. rewrite (marks_set r ids iv J (k_nan k) M), (marks_set r ids' iv' J (k_nan k) M').
  set (r1 := fun i => if J i then k_nan k else r i).
  destruct (W r1 it J iv iv' st st' M M' R) as (rw & H1 & H2 & H3).
  destruct (wf it (map r1 ids) _ _ iv st) as [a s], (wf it (map r1 ids') _ _ iv' st') as [a' s']. cbn [fst snd] in *. subst a a'.
  assert (N : forall iv1 iv1' J1 w, marks ids iv1 J1 -> marks ids' iv1' J1 -> RS ids ids' s s' ->
    ends ids ids'
      (fst match solve (map e ids) (map b ids) (wmap w ids) with
           | Err x => (Err x, s)
           | Ok z => let residual := k_resid k (map e ids) (map b ids) z in
               let cur := k_wres k residual (wmap w ids) in
               if converged (o_tol o) prev cur then (Ok (z, iv1), s)
               else iterate o wf (map e ids) (map b ids) fuel (S it) residual iv1 (Some cur) s
           end)
      (fst match solve (map e ids') (map b ids') (wmap w ids') with
           | Err x => (Err x, s')
           | Ok z => let residual := k_resid k (map e ids') (map b ids') z in
               let cur := k_wres k residual (wmap w ids') in
               if converged (o_tol o) prev cur then (Ok (z, iv1'), s')
               else iterate o wf (map e ids') (map b ids') fuel (S it) residual iv1' (Some cur) s'
           end)).
  { intros iv1 iv1' J1 w M1 M1' R1. rewrite (solve_order w ids ids' P).
    destruct (solve (map e ids) (map b ids) (wmap w ids)) as [z|x]; [|reflexivity].
    rewrite !resid_rows by exact Hb. cbv zeta. rewrite (wres_order _ w ids ids' P).
    destruct (converged _ _ _); [split; [reflexivity|exists J1; auto]|].
    apply (IH _ _ _ _ J1); auto. }
  destruct rw as [[w|]|x]; cbn [rmap bind wmap option_map]; [| |reflexivity].
  - rewrite (marks_set w ids iv J _ M), (marks_set w ids' iv' J _ M'). cbn [bind].
    apply (N _ _ _ (Some (fun i => if J i then k_zero k else w i)) (marks_nonzero _ _ ids) (marks_nonzero _ _ ids') H3).
  - apply (N _ _ J None M M' H3).
Qed.

Lemma m_estimate_order o z0 ow ids ids' st st' : Permutation ids ids' -> match ow with Some wf => worder wf | None => True end ->
  ends ids ids' (fst (m_estimate o (map e ids) (map b ids) z0 ow [] st)) (fst (m_estimate o (map e ids') (map b ids') z0 ow [] st')).
Proof.
  intros P W. unfold m_estimate. destruct ow as [wf|].
  - destruct z0 as [z0|]; [|reflexivity]. rewrite !resid_rows by exact Hb. destruct W as (RS & W).
    apply (iterate_order o wf RS ids ids' P (fun r it J iv iv' s s' => W e b r it ids ids' J iv iv' s s' Hb P) _ 0 _ [] [] (fun _ => false));
      [apply marks_nil|apply marks_nil|auto].
  - cbn [fst bind]. rewrite (solve_order None ids ids' P : solve (k := k) _ _ None = _). cbn [wmap option_map].
    destruct (solve (map e ids) (map b ids) None) as [z|x]; [|reflexivity]. split; [reflexivity|]. exists (fun _ => false). split; apply marks_nil.
Qed.

(** the rows that are left after the rejections [l] *)
Fixpoint tracks (ids : list nat) (l : list (list Z)) (left : list nat) : Prop :=
  match l with
  | [] => left = ids
  | iv :: l => exists J, marks ids iv J /\ tracks (filter (fun i => negb (J i)) ids) l left
  end.

Definition cends (ids ids' : list nat) (a a' : res (option Z' * list (list Z))) : Prop :=
  match a, a' with
  | Ok (z, l), Ok (z', l') => z' = z /\ exists left left', tracks ids l left /\ tracks ids' l' left' /\ Permutation left left'
  | Err x, Err x' => x' = x
  | _, _ => False
  end.

Lemma chain_order o ws : Forall (fun ow => match ow with Some wf => worder wf | None => True end) ws ->
  forall ids ids' z ii ii' J st st', Permutation ids ids' -> marks ids ii J -> marks ids' ii' J ->
  cends ids ids' (fst (chain o (map e ids) (map b ids) ws z ii st)) (fst (chain o (map e ids') (map b ids') ws z ii' st')).
Proof.
  induction 1 as [|w ws Hw Hws IH]; intros ids ids' z ii ii' J st st' P M M'; cbn [chain].
  - split; [reflexivity|]. exists (filter (fun i => negb (J i)) ids), (filter (fun i => negb (J i)) ids').
    split; [exists J; split; [exact M|reflexivity]|]. split; [exists J; split; [exact M'|reflexivity]|]. apply perm_filter, P.
  - rewrite !(marks_eliminate _ ids ii J M), !(marks_eliminate _ ids' ii' J M'). cbn [bind].
    pose proof (perm_filter (fun i => negb (J i)) _ _ P) as P1. revert P1.
    set (i1 := filter _ ids). set (i1' := filter _ ids'). intros P1.
    rewrite !map_length, <- (Permutation_length P1). destruct (negb (length i1 =? 0)); [|reflexivity]. cbn [check bind].
    pose proof (m_estimate_order o z w i1 i1' st st' P1 Hw) as H.
    destruct (m_estimate o (map e i1) _ z w [] st) as [a s], (m_estimate o (map e i1') _ z w [] st') as [a' s']. cbn [fst] in H.
    destruct a as [[z1 iv1]|x], a' as [[z1' iv1']|x']; try contradiction; [|exact H].
    destruct H as (-> & J1 & M1 & M1'). pose proof (IH i1 i1' (Some z1) iv1 iv1' J1 s s' P1 M1 M1') as H.
    destruct (chain o (map e i1) _ ws _ iv1 s) as [a s2], (chain o (map e i1') _ ws _ iv1' s') as [a' s2']. cbn [fst bind] in *.
    destruct a as [[z2 l]|x], a' as [[z2' l']|x']; try contradiction; [|exact H]. cbn [bind].
    destruct H as (-> & left & left' & T & T' & Q). split; [reflexivity|]. exists left, left'. split; [exists J; auto|]. split; [exists J; auto|exact Q].
Qed.
End Order.

Lemma tracks_dels l : forall (ids left : list nat), tracks ids l left -> legals (map Z.of_nat ids) l /\ dels (map Z.of_nat ids) l = map Z.of_nat left.
Proof.
  induction l as [|iv l IH]; intros ids left; cbn [tracks].
  - intros ->. split; [exact I|reflexivity].
  - intros (J & M & T). cbn [legals]. unfold dels. cbn [fold_left]. rewrite map_length, (marks_del Z.of_nat ids iv J M).
    destruct (IH _ _ T) as [T1 T2]. split; [split; [apply M|exact T1]|exact T2].
Qed.

Lemma legals_length l : forall A A', length A = length A' -> legals A l -> legals A' l.
Proof.
  induction l as [|iv l IH]; intros A A' L; cbn [legals]; [auto|]. intros [H1 H2]. rewrite <- L. split; [exact H1|].
  apply (IH (del 0 iv A)); [|exact H2]. clear - L. revert A' L. generalize 0. induction A as [|x A IH]; intros n [|y A'] L; try discriminate; [reflexivity|].
  simpl. injection L as L. destruct (memb Z.eqb (Z.of_nat n) iv); simpl; rewrite (IH (S n) A' L); reflexivity.
Qed.

Lemma dels_image (g : Z -> Z) l : forall A, dels (map g A) l = map g (dels A l).
Proof. unfold dels. induction l as [|iv l IH]; intros A; simpl; [reflexivity|]. rewrite del_map. apply IH. Qed.

(** the merged list has the positions of the rows that are not left *)
Lemma merge_tracks ids l left : NoDup ids -> tracks ids l left ->
  exists m, merge_invalid_indices l = Ok m /\
    forall z, In z m <-> exists j i, z = Z.of_nat j /\ nth_error ids j = Some i /\ ~ In i left.
Proof.
  intros ND T. destruct (tracks_dels l ids left T) as [L D].
  set (n := length ids). set (g := fun z => Z.of_nat (nth (Z.to_nat z) ids 0)).
  assert (A : map Z.of_nat ids = map g (arange (Z.of_nat n))).
  { unfold arange. rewrite Nat2Z.id, map_map. subst g n. apply nth_error_ext. intros j. rewrite !nth_error_map, nth_error_seq.
    destruct (Nat.ltb_spec j (length ids)) as [H|H].
    - simpl. rewrite Nat2Z.id. rewrite (nth_error_nth' ids 0 H). reflexivity.
    - apply nth_error_None in H. rewrite H. reflexivity. }
  assert (L' : legals (arange (Z.of_nat n)) l).
  { apply (legals_length l (map Z.of_nat ids)); [rewrite A, map_length; reflexivity|exact L]. }
  destruct (merge_spec n l L') as (m & Hm & _ & Hin). exists m. split; [exact Hm|]. intros z. rewrite Hin.
  rewrite A, dels_image in D. split.
  - intros [Hz Hn]. exists (Z.to_nat z). destruct (nth_error ids (Z.to_nat z)) as [i|] eqn:Ei.
    2:{ apply nth_error_None in Ei. fold n in Ei. lia. }
    exists i. split; [lia|]. split; [reflexivity|]. intros Hi. apply Hn.
    apply (in_map Z.of_nat) in Hi. rewrite <- D in Hi. apply in_map_iff in Hi as (y & Hy & Hyin).
    assert (Hya : In y (arange (Z.of_nat n))) by (apply (dels_sub l), Hyin). apply in_arange in Hya.
    unfold g in Hy. apply Nat2Z.inj in Hy.
    assert (Z.to_nat y = Z.to_nat z) as E.
    { apply (proj1 (NoDup_nth ids 0) ND); [subst n; lia|subst n; lia|]. rewrite Hy. symmetry. apply nth_error_nth. exact Ei. }
    replace z with y by lia. exact Hyin.
  - intros (j & i & -> & Hj & Hi). assert (j < n) as Hjn by (apply nth_error_Some; congruence). split; [lia|].
    intros Hd. apply Hi. apply (in_map g) in Hd. rewrite D in Hd. unfold g in Hd at 1. rewrite Nat2Z.id, (nth_error_nth _ _ _ Hj) in Hd.
    apply in_map_iff in Hd as (x & Hx & Hxin). apply Nat2Z.inj in Hx. subst x. exact Hxin.
Qed.

Section Transfer.
Context {k : Kern} {St : Type}.
Notation E := (kE k).
Notation B := (kB k).
Notation Z' := (kZ k).
Variables (okB : B -> Prop) (e0 : E) (b0 : B) (resid1 : E -> B -> Z' -> kR k).
Hypothesis ok0 : okB b0.
Hypothesis wlse_order : forall (e : nat -> E) (b : nat -> B) W ids ids', (forall i, okB (b i)) -> Permutation ids ids' ->
  k_wlse k (map e ids') (map b ids') (wmap W ids') = k_wlse k (map e ids) (map b ids) (wmap W ids).
Hypothesis resid_rows : forall (e : nat -> E) (b : nat -> B) ids z, (forall i, okB (b i)) -> k_resid k (map e ids) (map b ids) z = map (fun i => resid1 (e i) (b i) z) ids.
Hypothesis wres_order : forall (r : nat -> kR k) W ids ids', Permutation ids ids' ->
  k_wres k (map r ids') (wmap W ids') = k_wres k (map r ids) (wmap W ids).

Lemma list_names {T} (d : T) l : l = map (fun i => nth i l d) (seq 0 (length l)).
Proof.
  apply nth_error_ext. intros j. rewrite nth_error_map, nth_error_seq. destruct (Nat.ltb_spec j (length l)) as [H|H].
  - apply (nth_error_nth' l d), H.
  - apply nth_error_None, H.
Qed.

Lemma reordered_names {T} (d : T) p l l' : Permutation p (seq 0 (length l)) -> reordered p l l' -> l' = map (fun i => nth i l d) p.
Proof.
  intros P [L H]. apply nth_error_ext. intros j. rewrite nth_error_map. destruct (nth_error p j) as [i|] eqn:Ej.
  - rewrite (H j i Ej). assert (i < length l) as Hi.
    { apply nth_error_In in Ej. apply (Permutation_in _ P), in_seq in Ej. lia. }
    apply (nth_error_nth' l d), Hi.
  - apply nth_error_None in Ej. apply nth_error_None. lia.
Qed.

Definition inb (iv : list Z) (i : nat) : bool := memb Z.eqb (Z.of_nat i) iv.
Lemma inb_In iv i : inb iv i = true <-> In (Z.of_nat i) iv.
Proof. apply (memb_In _ Z.eqb_eq). Qed.

Lemma same_rows_marks n p iv iv' : Permutation p (seq 0 n) -> same_rows p iv iv' ->
  marks (seq 0 n) iv (inb iv) /\ marks p iv' (inb iv).
Proof.
  intros P [H1 H2]. split; split.
  - intros z Hz. destruct (H1 z Hz) as (i & Hi & ->). apply (Permutation_in _ P), in_seq in Hi. rewrite seq_length. lia.
  - intros m i Hm. rewrite nth_error_seq in Hm. destruct (Nat.ltb_spec m n); [|discriminate]. injection Hm as <-. rewrite inb_In. reflexivity.
  - intros z Hz. apply H2 in Hz as (j & i & -> & Hj & _). assert (j < length p) by (apply nth_error_Some; congruence). lia.
  - intros m i Hm. rewrite inb_In, H2. split.
    + intros (j & i' & E & Hj & Hi). apply Nat2Z.inj in E. subst j. rewrite Hm in Hj. injection Hj as <-. exact Hi.
    + intros Hi. exists m, i. auto.
Qed.

Definition rends (p : list nat) (a a' : res (list (option Z' * list Z))) : Prop :=
  match a, a' with
  | Ok rs, Ok rs' => Forall2 (fun r r' => fst r' = fst r /\ same_rows p (snd r) (snd r')) rs rs'
  | Err x, Err x' => x' = x
  | _, _ => False
  end.

Lemma merge_same n p l l' left left' : Permutation p (seq 0 n) -> tracks (seq 0 n) l left -> tracks p l' left' -> Permutation left left' ->
  exists m m', merge_invalid_indices l = Ok m /\ merge_invalid_indices l' = Ok m' /\ same_rows p m m'.
Proof.
  intros P T T' Q.
  destruct (merge_tracks (seq 0 n) l left (seq_NoDup n 0) T) as (m & Hm & Im).
  destruct (merge_tracks p l' left' (Permutation_NoDup (Permutation_sym P) (seq_NoDup n 0)) T') as (m' & Hm' & Im').
  exists m, m'. split; [exact Hm|]. split; [exact Hm'|].
  assert (In_m : forall i, In (Z.of_nat i) m <-> In i p /\ ~ In i left).
  { intros i. rewrite Im. split.
    - intros (j & i' & E & Hj & Hl). apply Nat2Z.inj in E. subst j. rewrite nth_error_seq in Hj. destruct (Nat.ltb_spec i n); [|discriminate].
      injection Hj as <-. split; [|exact Hl]. apply (Permutation_in _ (Permutation_sym P)), in_seq. lia.
    - intros [Hp Hl]. apply (Permutation_in _ P), in_seq in Hp. exists i, i. rewrite nth_error_seq.
      destruct (Nat.ltb_spec i n); [auto|lia]. }
  split.
  - intros z Hz. pose proof Hz as Hz'. apply Im in Hz as (j & i & -> & _ & _). exists j. split; [apply In_m, Hz'|reflexivity].
  - intros z. rewrite Im'. split; intros (j & i & -> & Hj & Hi); exists j, i; (split; [reflexivity|]); (split; [exact Hj|]).
    + apply In_m. split; [apply nth_error_In in Hj; exact Hj|]. intros G. apply Hi, (Permutation_in _ Q), G.
    + apply In_m in Hi as [_ Hi]. intros G. apply Hi, (Permutation_in _ (Permutation_sym Q)), G.
Qed.

Lemma each_order o p (bs bs' : list B) (ws : list (option (wfun k St))) : Permutation p (seq 0 (length bs)) -> reordered p bs bs' -> Forall okB bs ->
  Forall (fun ow => match ow with Some wf => worder okB wf | None => True end) ws ->
  forall outs outs' inits ivs ivs' st st', Forall2 (reordered p) outs outs' -> Forall (fun e => length e = length bs) outs ->
  Forall2 (same_rows p) ivs ivs' ->
  rends p (fst (each_output o bs ws outs inits (map Ok ivs) st)) (fst (each_output o bs' ws outs' inits (map Ok ivs') st')).
Proof.
  intros P RB OB W outs outs' inits ivs ivs' st st' RO. revert inits ivs ivs' st st'.
  induction RO as [|e e' outs outs' RE RO IH]; intros inits ivs ivs' st st' L RI; [constructor|].
  destruct inits as [|z0 inits]; [constructor|]. destruct RI as [|iv iv' ivs ivs' RI1 RI]; [constructor|].
  inversion L as [|? ? L1 L2]; subst. cbn [map each_output].
  destruct (same_rows_marks (length bs) p iv iv' P RI1) as [M M'].
  assert (Hb : forall i, okB (nth i bs b0)) by (intros i; destruct (nth_in_or_default i bs b0) as [Hi| ->]; [exact (proj1 (Forall_forall _ _) OB _ Hi)|exact ok0]).
  pose proof (chain_order okB resid1 wlse_order resid_rows wres_order (fun i => nth i e e0) (fun i => nth i bs b0) Hb o ws W
    (seq 0 (length bs)) p z0 iv iv' (inb iv) st st' (Permutation_sym P) M M') as H.
  rewrite <- (list_names b0 bs), <- (reordered_names b0 p bs bs' P RB) in H.
  rewrite <- (reordered_names e0 p e e') in H; [|rewrite L1; exact P|exact RE].
  rewrite <- L1, <- (list_names e0 e) in H.
  destruct (chain o e bs ws z0 iv st) as [a s], (chain o e' bs' ws z0 iv' st') as [a' s']. cbn [fst] in H.
  destruct a as [[z l]|x], a' as [[z' l']|x']; try contradiction; cbn [bind].
  - destruct H as (-> & left & left' & T & T' & Q). rewrite L1 in T.
    destruct (merge_same (length bs) p l l' left left' P T T' Q) as (m & m' & Hm & Hm' & S). rewrite Hm, Hm'. cbn [bind].
    pose proof (IH inits ivs ivs' s s' L2 RI) as H.
    destruct (each_output o bs ws outs inits (map Ok ivs) s) as [a s2], (each_output o bs' ws outs' inits (map Ok ivs') s') as [a' s2']. cbn [fst bind] in *.
    destruct a as [rs|x], a' as [rs'|x']; try contradiction; cbn [bind]; [|exact H]. constructor; [|exact H]. split; [reflexivity|exact S].
  - exact H.
Qed.

Lemma same_rows_nil p : same_rows p [] [].
Proof. split; [intros z []|]. intros z. split; [intros []|intros (j & i & _ & _ & [])]. Qed.

Lemma iv_each_order p n iv iv' : same_rows_given p iv iv' ->
  (exists x, iv_each n iv = Err x /\ iv_each n iv' = Err x) \/
  (exists ls ls', iv_each n iv = Ok (map Ok ls) /\ iv_each n iv' = Ok (map Ok ls') /\ Forall2 (same_rows p) ls ls').
Proof.
  intros H.
  assert (G : forall ls ls' : list (list Z), Forall2 (same_rows p) ls ls' ->
    let f (l : list (list Z)) := (_ <- check (negb (length (map (@Ok (list Z)) l) =? 0)) IndexError ;;
      _ <- check (length (map (@Ok (list Z)) l) =? n) AssertionError ;; Ok (map (@Ok (list Z)) l)) in
    (exists x, f ls = Err x /\ f ls' = Err x) \/ (exists ls1 ls1', f ls = Ok (map Ok ls1) /\ f ls' = Ok (map Ok ls1') /\ Forall2 (same_rows p) ls1 ls1')).
  { intros ls ls' F f. unfold f. rewrite !map_length. assert (length ls = length ls') as <- by (clear - F; induction F; simpl; congruence).
    destruct (length ls =? 0); [left; exists IndexError; auto|]. cbn [negb check bind].
    destruct (length ls =? n); [|left; exists AssertionError; auto]. right. exists ls, ls'. auto. }
  assert (RP : forall l l', same_rows p l l' -> Forall2 (same_rows p) (repeat l n) (repeat l' n)).
  { intros l l' S. clear G. induction n; simpl; constructor; assumption. }
  assert (RM : forall l : list Z, repeat (@Ok (list Z) l) n = map Ok (repeat l n)).
  { intros l. clear G RP. induction n; simpl; congruence. }
  destruct iv as [|l|l|ll], iv' as [|l'|l'|ll']; try contradiction; cbn [same_rows_given] in H; unfold iv_each.
  - cbn [bind]. rewrite RM. apply (G (repeat [] n) (repeat [] n)), RP, same_rows_nil.
  - destruct l as [|z l], l' as [|z' l']; cbn [bind].
    + rewrite RM. apply (G (repeat [] n) (repeat [] n)), RP, same_rows_nil.
    + exfalso. destruct (proj1 (proj2 H z') (or_introl eq_refl)) as (j & i & _ & _ & []).
    + exfalso. destruct (proj1 H z (or_introl eq_refl)) as (i & Hi & ->). apply In_nth_error in Hi as [j Hj].
      assert (In (Z.of_nat j) []) as []. apply (proj2 H). exists j, i. split; [reflexivity|]. split; [exact Hj|left; reflexivity].
    + rewrite !RM. apply (G (repeat (z :: l) n) (repeat (z' :: l') n)), RP, H.
  - destruct H as [|x x' ll ll' H1 H2]; cbn [bind].
    + rewrite RM. apply (G (repeat [] n) (repeat [] n)), RP, same_rows_nil.
    + apply (G (x :: ll) (x' :: ll')). constructor; assumption.
Qed.

Lemma transfer_order o p (bs bs' : list B) (ws : list (option (wfun k St))) outs outs' init iv iv' st st' :
  Permutation p (seq 0 (length bs)) -> reordered p bs bs' -> Forall okB bs -> Forall2 (reordered p) outs outs' ->
  Forall (fun e => length e = length bs) outs -> same_rows_given p iv iv' ->
  Forall (fun ow => match ow with Some wf => worder okB wf | None => True end) ws ->
  rends p (fst (transfer_function o outs bs ws init iv st)) (fst (transfer_function o outs' bs' ws init iv' st')).
Proof.
  intros P RB OB RO L RI W. unfold transfer_function.
  assert (length outs = length outs') as LO by (clear - RO; induction RO; simpl; congruence). rewrite <- LO.
  destruct (iv_each_order p (length outs) iv iv' RI) as [(x & -> & ->) | (ls & ls' & -> & -> & F)]; [reflexivity|]. cbn [bind].
  assert (length p = length bs) as Lp by (rewrite (Permutation_length P); apply seq_length).
  assert (C1 : forallb (fun e => length e =? length bs) outs = true).
  { apply forallb_forall. intros e He. rewrite Forall_forall in L. apply Nat.eqb_eq, L, He. }
  assert (C2 : forallb (fun e => length e =? length bs') outs' = true).
  { apply forallb_forall. intros e He. apply Nat.eqb_eq. destruct RB as [-> _]. clear - RO He.
    induction RO as [|x y l l' [R _] RO IH]; [destruct He|]. destruct He as [<-|He]; [exact R|auto]. }
  rewrite C1, C2. cbn [check bind].
  destruct (length _ =? length outs); [|reflexivity]. cbn [check bind].
  apply each_order; assumption.
Qed.
End Transfer.
