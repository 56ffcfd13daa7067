(** Lemmas about the blocks of the determination filter. *)
From Verif Require Import Base BaseLemmas PrefilterModel SpecPrefilter.

Lemma nth_error_firstn {T} (l : list T) : forall k i, i < k -> nth_error (firstn k l) i = nth_error l i.
Proof. induction l as [|x l IH]; intros [|k] [|i] H; simpl; try lia; try reflexivity. apply IH. lia. Qed.

Lemma in_block_fun size n i lo hi lo' hi' : 0 < size -> in_block size n i lo hi -> in_block size n i lo' hi' -> lo = lo' /\ hi = hi'.
Proof.
  intros Hs (Hi & (q & ->) & H) (Hi' & (q' & ->) & H').
  assert (q = q').
  { destruct (Nat.lt_trichotomy q q') as [L|[L|L]]; [exfalso| exact L|exfalso].
    - assert (q * size + size <= q' * size) by nia. destruct H as [[-> _]|[-> [Hn _]]]; [lia|].
      destruct H' as [[-> Hh]|[-> [_ [Hl|Hl]]]]; nia.
    - assert (q' * size + size <= q * size) by nia. destruct H' as [[-> _]|[-> [Hn _]]]; [lia|].
      destruct H as [[-> Hh]|[-> [_ [Hl|Hl]]]]; nia. }
  subst q'. split; [reflexivity|]. destruct H as [[-> H]|[-> [H _]]], H' as [[-> H']|[-> [H' _]]]; nia.
Qed.

Lemma in_block_ex size n i : 0 < size -> i < n -> exists lo hi, in_block size n i lo hi.
Proof.
  intros Hs Hi. pose proof (Nat.div_mod n size ltac:(lia)) as D. pose proof (Nat.mod_upper_bound n size ltac:(lia)) as M.
  pose proof (Nat.div_mod i size ltac:(lia)) as D'. pose proof (Nat.mod_upper_bound i size ltac:(lia)) as M'.
  set (q := n / size) in *. set (r := n mod size) in *. set (p := i / size) in *. set (s := i mod size) in *.
  destruct (le_lt_dec (q - 1) p) as [L|L].
  - exists ((q - 1) * size), n. split; [split; nia|]. split; [exists (q - 1); reflexivity|]. right. split; [reflexivity|].
    split; [nia|]. destruct q as [|[|q]]; [left; lia|left; lia|right; nia].
  - exists (p * size), (p * size + size). split; [nia|]. split; [exists p; reflexivity|]. left. split; [reflexivity|]. nia.
Qed.

Lemma butlast_nth {T} (l : list T) i : nth_error (butlast l) i = if i <? length l - 1 then nth_error l i else None.
Proof.
  unfold butlast. destruct (Nat.ltb_spec i (length l - 1)) as [L|L].
  - apply nth_error_firstn. exact L.
  - apply nth_error_None. rewrite firstn_length. lia.
Qed.

Lemma breshape_length {T} size (l : list T) : length (breshape size l) = length l / size.
Proof. unfold breshape. rewrite map_length, seq_length. reflexivity. Qed.
Lemma breshape_nth {T} size (l : list T) i : nth_error (breshape size l) i = if i <? length l / size then Some (firstn size (skipn (i * size) l)) else None.
Proof. unfold breshape. rewrite nth_error_map, nth_error_seq. destruct (i <? length l / size); reflexivity. Qed.

Lemma concat_repeat_length {T} size (l : list T) : length (concat (map (fun t => repeat t size) l)) = length l * size.
Proof. induction l as [|x l IH]; [reflexivity|]. simpl. rewrite app_length, repeat_length, IH. reflexivity. Qed.
Lemma concat_repeat_nth {T} size : 0 < size -> forall (l : list T) i, nth_error (concat (map (fun t => repeat t size) l)) i = nth_error l (i / size).
Proof.
  intros Hs. induction l as [|x l IH]; intros i; simpl; [destruct i as [|i]; [|generalize (S i / size); intros [|m]]; try reflexivity; destruct (0 / size); reflexivity|].
  destruct (Nat.lt_ge_cases i size) as [L|L].
  - rewrite nth_error_app1 by (rewrite repeat_length; exact L). rewrite Nat.div_small by exact L. simpl.
    destruct (nth_error (repeat x size) i) as [y|] eqn:E; [apply nth_error_In, repeat_spec in E; congruence|].
    apply nth_error_None in E. rewrite repeat_length in E. lia.
  - rewrite nth_error_app2 by (rewrite repeat_length; exact L). rewrite repeat_length, IH.
    replace i with (i - size + 1 * size) at 2 by lia. rewrite Nat.div_add by lia. rewrite Nat.add_1_r. reflexivity.
Qed.

Lemma mapM_nth {X Y} (f : X -> res Y) : forall l l', mapM f l = Ok l' -> forall i x, nth_error l i = Some x -> exists y, f x = Ok y /\ nth_error l' i = Some y.
Proof.
  induction l as [|a l IH]; intros l' H i x E; [destruct i; discriminate|]. simpl in H.
  apply bind_ok in H as (y & H1 & H). apply bind_ok in H as (ys & H2 & H). injection H as <-.
  destruct i as [|i]; simpl in *; [injection E as ->; eauto|eauto].
Qed.
Lemma mapM_len {X Y} (f : X -> res Y) : forall l l', mapM f l = Ok l' -> length l' = length l.
Proof.
  induction l as [|a l IH]; intros l' H; simpl in H; [injection H as <-; reflexivity|].
  apply bind_ok in H as (y & H1 & H). apply bind_ok in H as (ys & H2 & H). injection H as <-. simpl. rewrite (IH _ H2). reflexivity.
Qed.
Lemma mapM_intro {X Y} (f : X -> res Y) l : (forall x, In x l -> exists y, f x = Ok y) -> exists l', mapM f l = Ok l'.
Proof.
  induction l as [|a l IH]; intros H; simpl; [eauto|]. destruct (H a (or_introl eq_refl)) as (y & ->). simpl.
  destruct IH as (ys & ->); [intros; apply H; right; assumption|]. simpl. eauto.
Qed.

Section Value.
Context {N E B : Type} (zero : N) (cod : list E -> list B -> res N).

(** the arithmetic of the blocks *)
Lemma blocks_arith size n : 0 < size -> (n / size - 1) * size = n - (size + n mod size) /\ (n - (size + n mod size) <= n) /\ n < n - (size + n mod size) + 2 * size /\
  (n - (size + n mod size) = 0 \/ n - (size + n mod size) + size <= n).
Proof.
  intros Hs. pose proof (Nat.div_mod n size ltac:(lia)) as D. pose proof (Nat.mod_upper_bound n size ltac:(lia)) as M.
  set (q := n / size) in *. set (r := n mod size) in *. destruct q as [|q]; nia.
Qed.

Lemma block_pair size (e : list E) (b : list B) i : length b = length e ->
  nth_error (combine (butlast (breshape size e)) (butlast (breshape size b))) i =
  if i <? length e / size - 1 then Some (firstn size (skipn (i * size) e), firstn size (skipn (i * size) b)) else None.
Proof.
  intros El. destruct (nth_error (combine _ _) i) as [[x y]|] eqn:Ec.
  - assert (H : nth_error (butlast (breshape size e)) i = Some x /\ nth_error (butlast (breshape size b)) i = Some y).
    { revert Ec. generalize (butlast (breshape size e)) (butlast (breshape size b)). clear. intros l l' H. revert l l' H.
      induction i as [|i IH]; intros [|u l] [|v l'] H; try discriminate; simpl in *; [injection H as -> ->; auto|apply IH; exact H]. }
    destruct H as [H1 H2]. rewrite butlast_nth, breshape_length, breshape_nth in H1. rewrite butlast_nth, breshape_length, breshape_nth, El in H2.
    destruct (Nat.ltb_spec i (length e / size - 1)) as [L|L]; [|discriminate].
    destruct (Nat.ltb_spec i (length e / size)); [|lia]. injection H1 as <-. injection H2 as <-. reflexivity.
  - apply nth_error_None in Ec. rewrite combine_length in Ec. unfold butlast in Ec. rewrite !firstn_length, !breshape_length, El in Ec.
    destruct (Nat.ltb_spec i (length e / size - 1)); [lia|reflexivity].
Qed.
Lemma block_pair_len size (e : list E) (b : list B) : length b = length e ->
  length (combine (butlast (breshape size e)) (butlast (breshape size b))) = length e / size - 1.
Proof. intros El. rewrite combine_length. unfold butlast. rewrite !firstn_length, !breshape_length, El. lia. Qed.

Lemma rows_block {T} (l : list T) lo size : rows lo (lo + size) l = firstn size (skipn lo l).
Proof. unfold rows. f_equal. lia. Qed.
Lemma rows_end {T} (l : list T) lo : rows lo (length l) l = skipn lo l.
Proof. unfold rows. rewrite <- skipn_length. apply firstn_all. Qed.

Lemma value_spec size e b c : 0 < size -> length b = length e -> value zero cod size e b = Ok c ->
  length c = length e /\
  forall i, i < length e -> exists lo hi v, in_block size (length e) i lo hi /\ cod (rows lo hi e) (rows lo hi b) = Ok v /\ nth_error c i = Some v.
Proof.
  intros Hs El H. unfold value in H. cbv zeta in H. set (n := length e) in *.
  destruct (blocks_arith size n Hs) as (B1 & B2 & B3 & B4). set (u := n - (size + n mod size)) in *.
  destruct (Nat.ltb_spec 0 size) as [_|Z0]; [|lia]. cbn [check bind] in H. fold u in H.
  apply bind_ok in H as (tmp & Ht & H). apply bind_ok in H as (v & Hv & H). injection H as <-.
  pose proof (mapM_len _ _ _ Ht) as Lt. rewrite (block_pair_len size e b El) in Lt. fold n in Lt.
  set (c1 := concat (map (fun t => repeat t size) tmp) ++ skipn (length tmp * size) (repeat zero n)).
  assert (L1 : length c1 = n).
  { unfold c1. rewrite app_length, concat_repeat_length, skipn_length, repeat_length, Lt, B1. lia. }
  split; [rewrite app_length, firstn_length, repeat_length, skipn_length, L1; lia|].
  intros i Hi. destruct (Nat.lt_ge_cases i u) as [L|L].
  - rewrite nth_error_app1 by (rewrite firstn_length; lia). rewrite nth_error_firstn by exact L.
    unfold c1. rewrite nth_error_app1 by (rewrite concat_repeat_length, Lt, B1; exact L). rewrite (concat_repeat_nth size Hs).
    assert (Q : i / size < n / size - 1) by (apply Nat.div_lt_upper_bound; [lia|]; rewrite Nat.mul_comm, B1; exact L).
    pose proof (block_pair size e b (i / size) El) as Ep. fold n in Ep. destruct (Nat.ltb_spec (i / size) (n / size - 1)); [|lia].
    destruct (mapM_nth _ _ _ Ht _ _ Ep) as (y & Hy & Ey). simpl in Hy.
    exists (i / size * size), (i / size * size + size), y.
    pose proof (Nat.div_mod i size ltac:(lia)) as D. pose proof (Nat.mod_upper_bound i size ltac:(lia)) as M.
    split; [|split; [rewrite !rows_block; exact Hy|exact Ey]].
    split; [nia|]. split; [exists (i / size); reflexivity|]. left. split; [reflexivity|].
    assert (i / size * size + size <= u) by (rewrite <- B1; nia). lia.
  - rewrite nth_error_app2 by (rewrite firstn_length; lia). rewrite firstn_length, skipn_length, L1. replace (Nat.min u n) with u by lia.
    exists u, n, v. split; [|split].
    + split; [lia|]. split; [exists (n / size - 1); symmetry; exact B1|]. right. split; [reflexivity|]. split; [exact B3|exact B4].
    + assert (R1 : rows u n e = skipn u e) by (unfold n; apply rows_end).
      assert (R2 : rows u n b = skipn u b) by (rewrite <- El; apply rows_end). rewrite R1, R2. exact Hv.
    + destruct (nth_error (repeat v (n - u)) (i - u)) as [y|] eqn:Ey; [apply nth_error_In, repeat_spec in Ey; congruence|].
      apply nth_error_None in Ey. rewrite repeat_length in Ey. lia.
Qed.

Lemma value_ok size e b : 0 < size -> length b = length e -> e <> [] ->
  (forall i lo hi, in_block size (length e) i lo hi -> exists v, cod (rows lo hi e) (rows lo hi b) = Ok v) ->
  exists c, value zero cod size e b = Ok c.
Proof.
  intros Hs El Hne H. unfold value. cbv zeta. set (n := length e) in *.
  assert (Hn : 0 < n) by (unfold n; destruct e; [congruence|simpl; lia]).
  destruct (blocks_arith size n Hs) as (B1 & B2 & B3 & B4). set (u := n - (size + n mod size)) in *.
  destruct (Nat.ltb_spec 0 size) as [_|Z0]; [|lia]. cbn [check bind]. fold u.
  destruct (mapM_intro (fun p => cod (fst p) (snd p)) (combine (butlast (breshape size e)) (butlast (breshape size b)))) as (tmp & ->).
  - intros p Hp. apply In_nth_error in Hp as (j & Hj). rewrite (block_pair size e b j El) in Hj. fold n in Hj.
    destruct (Nat.ltb_spec j (n / size - 1)) as [L|L]; [|discriminate]. injection Hj as <-. simpl.
    assert (j * size + size <= u) by (rewrite <- B1; nia).
    destruct (H (j * size) (j * size) (j * size + size)) as (v & Hv).
    { split; [lia|]. split; [exists j; reflexivity|]. left. split; [reflexivity|lia]. }
    rewrite !rows_block in Hv. eauto.
  - simpl. destruct (H u u n) as (v & Hv).
    { assert (u < n) by lia. split; [lia|]. split; [exists (n / size - 1); symmetry; exact B1|]. right. auto. }
    assert (R1 : rows u n e = skipn u e) by (unfold n; apply rows_end).
    assert (R2 : rows u n b = skipn u b) by (rewrite <- El; apply rows_end).
    rewrite R1, R2 in Hv. rewrite Hv. simpl. eauto.
Qed.

Lemma mapM_err {X Y} (f : X -> res Y) x : forall l, mapM f l = Err x -> exists a, In a l /\ f a = Err x.
Proof.
  induction l as [|a l IH]; intros H; simpl in H; [discriminate|]. destruct (f a) as [y|e] eqn:F; simpl in H.
  - destruct (mapM f l) eqn:G; simpl in H; [discriminate|]. injection H as ->. destruct (IH eq_refl) as (b & Hb & Fb). exists b. simpl. auto.
  - injection H as ->. exists a. simpl. auto.
Qed.

Lemma value_err size e b x : 0 < size -> length b = length e -> e <> [] -> value zero cod size e b = Err x ->
  exists i lo hi, in_block size (length e) i lo hi /\ cod (rows lo hi e) (rows lo hi b) = Err x.
Proof.
  intros Hs El Hne H. unfold value in H. cbv zeta in H. set (n := length e) in *.
  assert (Hn : 0 < n) by (unfold n; destruct e; [congruence|simpl; lia]).
  destruct (blocks_arith size n Hs) as (B1 & B2 & B3 & B4). set (u := n - (size + n mod size)) in *.
  destruct (Nat.ltb_spec 0 size) as [_|Z0]; [|lia]. cbn [check bind] in H. fold u in H.
  destruct (mapM _ _) as [tmp|y] eqn:M in H.
  - simpl in H. assert (R1 : rows u n e = skipn u e) by (unfold n; apply rows_end).
    assert (R2 : rows u n b = skipn u b) by (rewrite <- El; apply rows_end).
    exists u, u, n. rewrite R1, R2. split.
    { assert (u < n) by lia. split; [lia|]. split; [exists (n / size - 1); symmetry; exact B1|]. right. auto. }
    destruct (cod (skipn u e) (skipn u b)); simpl in H; [discriminate|injection H as ->; reflexivity].
  - simpl in H. injection H as ->. apply mapM_err in M as (p & Hp & F). apply In_nth_error in Hp as (j & Hj).
    rewrite (block_pair size e b j El) in Hj. fold n in Hj.
    destruct (Nat.ltb_spec j (n / size - 1)) as [L|L]; [|discriminate]. injection Hj as <-. simpl in F.
    assert (j * size + size <= u) by (rewrite <- B1; nia).
    exists (j * size), (j * size), (j * size + size). rewrite !rows_block. split; [|exact F].
    split; [lia|]. split; [exists j; reflexivity|]. left. split; [reflexivity|lia].
Qed.

Lemma where_spec f (l : list (N)) : StronglySorted Z.lt (where_ f l) /\
  forall i, In i (where_ f l) <-> exists n x, i = Z.of_nat n /\ nth_error l n = Some x /\ f x = true.
Proof.
  assert (G : forall (l : list (N)) a,
    StronglySorted Z.lt (flat_map (fun p : nat * N => if f (snd p) then [Z.of_nat (fst p)] else []) (combine (seq a (length l)) l)) /\
    forall i, In i (flat_map (fun p : nat * N => if f (snd p) then [Z.of_nat (fst p)] else []) (combine (seq a (length l)) l)) <->
      exists n x, i = Z.of_nat (a + n) /\ nth_error l n = Some x /\ f x = true).
  { clear l. induction l as [|x l IH]; intros a; cbn [length seq combine flat_map fst snd].
    - split; [constructor|]. intros i. split; [intros []|intros ([|n] & x & _ & H & _); discriminate].
    - destruct (IH (S a)) as [S1 I1].
      assert (Rest : forall i, In i (flat_map (fun p : nat * N => if f (snd p) then [Z.of_nat (fst p)] else []) (combine (seq (S a) (length l)) l)) <->
        exists n y, i = Z.of_nat (a + S n) /\ nth_error (x :: l) (S n) = Some y /\ f y = true).
      { intros i. rewrite I1. split; intros (n & y & -> & H); exists n, y; (split; [lia|exact H]). }
      destruct (f x) eqn:Ef; cbn [app].
      + split.
        * constructor; [exact S1|]. apply Forall_forall. intros i Hi. apply I1 in Hi as (n & y & -> & _). lia.
        * intros i. cbn [In]. rewrite Rest. split.
          -- intros [<-|(n & y & H)]; [exists 0, x; rewrite Nat.add_0_r; auto|exists (S n), y; exact H].
          -- intros ([|n] & y & -> & H1 & H2); [left; f_equal; lia|right; exists n, y; auto].
      + split; [exact S1|]. intros i. rewrite Rest. split.
        * intros (n & y & H). exists (S n), y. exact H.
        * intros ([|n] & y & -> & H1 & H2); [simpl in H1; congruence|exists n, y; auto]. }
  exact (G l 0).
Qed.

End Value.

Lemma filter_spec (N E B : Type) (zero : N) (ltb : N -> N -> bool) (cod : list E -> list B -> res N) cmin cmax size e b iv :
  0 < size -> length b = length e -> cod_filter zero ltb cod cmin cmax size e b = Ok iv ->
  StronglySorted Z.lt iv /\
  forall j, In j iv <->
  exists i lo hi v, j = Z.of_nat i /\ in_block size (length e) i lo hi /\ cod (rows lo hi e) (rows lo hi b) = Ok v /\
                    (ltb v cmin = true \/ ltb cmax v = true).
Proof.
  intros Hs El H. unfold cod_filter in H. apply bind_ok in H as (c & Hc & H). injection H as <-.
  destruct (value_spec zero cod size e b c Hs El Hc) as [Lc V]. destruct (where_spec (fun x => ltb x cmin || ltb cmax x) c) as [S I].
  split; [exact S|]. intros j. rewrite I. split.
  - intros (n & x & -> & Hn & Hx). assert (Hl : n < length e) by (rewrite <- Lc; apply nth_error_Some; congruence).
    destruct (V n Hl) as (lo & hi & v & Hb & Hv & Ev). rewrite Hn in Ev. injection Ev as <-.
    exists n, lo, hi, x. apply orb_true_iff in Hx. auto.
  - intros (i & lo & hi & v & -> & Hb & Hv & Ho).
    assert (Hl : i < length e) by (destruct Hb as (H1 & _ & [[-> H2]|[-> _]]); lia).
    destruct (V i Hl) as (lo' & hi' & v' & Hb' & Hv' & Ev). destruct (in_block_fun _ _ _ _ _ _ _ Hs Hb Hb') as [-> ->].
    exists i, v. assert (v' = v) by congruence. subst. apply orb_true_iff in Ho. auto.
Qed.

(** rows changed one by one *)
Lemma mapM_through {X Y Z} (f : X -> Y) (g : Y -> res Z) l : mapM g (map f l) = mapM (fun x => g (f x)) l.
Proof. induction l as [|x l IH]; [reflexivity|]. cbn [map mapM]. rewrite IH. reflexivity. Qed.
Lemma mapM_same {X Y} (f g : X -> res Y) l : (forall x, f x = g x) -> mapM f l = mapM g l.
Proof. intros H. induction l as [|x l IH]; [reflexivity|]. cbn [mapM]. rewrite H, IH. reflexivity. Qed.
Lemma combine_both {X Y X' Y'} (f : X -> X') (g : Y -> Y') : forall l l', combine (map f l) (map g l') = map (fun p => (f (fst p), g (snd p))) (combine l l').
Proof. induction l as [|x l IH]; intros [|y l']; try reflexivity. cbn [map combine fst snd]. rewrite IH. reflexivity. Qed.

Lemma breshape_map {X Y} (f : X -> Y) size l : breshape size (map f l) = map (map f) (breshape size l).
Proof.
  unfold breshape. rewrite map_length, map_map. apply map_ext. intros i. rewrite skipn_map, firstn_map. reflexivity.
Qed.
Lemma butlast_map {X Y} (f : X -> Y) l : butlast (map f l) = map f (butlast l).
Proof. unfold butlast. rewrite map_length, firstn_map. reflexivity. Qed.

Lemma value_through {N E B E' B'} (zero : N) (cod : list E -> list B -> res N) (cod' : list E' -> list B' -> res N) (f : E -> E') (g : B -> B') size e b :
  (forall e b, cod' (map f e) (map g b) = cod e b) -> value zero cod' size (map f e) (map g b) = value zero cod size e b.
Proof.
  intros H. unfold value. rewrite map_length, !breshape_map, !butlast_map, combine_both, mapM_through, !skipn_map, H.
  rewrite (mapM_same _ (fun p => cod (fst p) (snd p))); [reflexivity|]. intros [x y]. apply H.
Qed.
