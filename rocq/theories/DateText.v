(** The texts of instants. *)
From Coq Require Import QArith Qabs Lqa.
From Verif Require Import Base BaseLemmas NumTextModel SpecNumText DateProofs NumTextProofs.
Open Scope Z_scope. Local Open Scope list_scope.

Definition year (a : Z * Z * Z) : Z := fst (fst a).
Lemma year_range n : 1 <= year (ord2ymd n) <= 9999 <-> 1 <= n <= 3652059.
Proof.
  destruct (formed n) as [a b c d r Hb Hc Hd Hr|a b c Hb Hc|a].
  - rewrite ord_common by assumption. unfold year. cbn [fst]. lia.
  - rewrite ord_fourth by assumption. unfold year. cbn [fst]. lia.
  - rewrite ord_cycle. unfold year. cbn [fst]. lia.
Qed.

(** ** the nearest integer *)
Lemma rhe_half a d : 0 < d -> 2 * Z.abs (rhe a d * d - a) <= d /\ (2 * Z.abs (rhe a d * d - a) = d -> Z.Even (rhe a d)).
Proof.
  intros Hd. unfold rhe. pose proof (Z.div_mod a d ltac:(lia)) as E. pose proof (Z.mod_pos_bound a d Hd) as B. set (q := a / d) in *. set (r := a mod d) in *.
  cbv zeta. destruct (Z.ltb_spec (2 * r) d); [replace (q * d - a) with (- r) by nia; lia|].
  destruct (Z.ltb_spec d (2 * r)); [replace ((q + 1) * d - a) with (d - r) by nia; lia|].
  destruct (Z.even q) eqn:V; [replace (q * d - a) with (- r) by nia; split; [lia|]; intros _; apply Z.even_spec; exact V|].
  replace ((q + 1) * d - a) with (d - r) by nia. split; [lia|]. intros _. apply Z.even_spec. rewrite Z.add_1_r, Z.even_succ, <- Z.negb_even, V. reflexivity.
Qed.
Lemma round_nearest x : nearest x (round x).
Proof.
  unfold nearest, round. destruct x as [a d]. cbn [Qnum Qden]. set (m := rhe a (Zpos d)). pose proof (rhe_half a (Zpos d) eq_refl) as [H1 H2]. fold m in H1, H2.
  assert (E : (Qabs (inject_Z m - (a # d)) == (Z.abs (m * Zpos d - a) # d))%Q).
  { setoid_replace (inject_Z m - (a # d))%Q with ((m * Zpos d - a) # d)%Q; [reflexivity|]. unfold Qeq, Qminus, Qplus, Qopp, inject_Z. cbn. lia. }
  rewrite E. split; [unfold Qle; cbn; lia|]. intros Q. apply H2. unfold Qeq in Q. cbn in Q. lia.
Qed.
Lemma nearest_unique x n m : nearest x n -> nearest x m -> n = m.
Proof.
  intros [A A'] [B B']. apply Qabs_Qle_condition in A, B. destruct (Z.lt_trichotomy n m) as [L|[L|L]]; [exfalso|exact L|exfalso].
  - assert (G : (inject_Z n + 1 <= inject_Z m)%Q) by (change 1%Q with (inject_Z 1); rewrite <- inject_Z_plus, <- Zle_Qle; lia).
    assert (m = n + 1). { apply Z.le_antisymm; [|lia]. rewrite Zle_Qle, inject_Z_plus. change (inject_Z 1) with 1%Q. lra. } subst m. rewrite inject_Z_plus in *. change (inject_Z 1) with 1%Q in *.
    assert (Z.Even n) as [u Hu] by (apply A'; rewrite Qabs_neg by lra; lra). assert (Z.Even (n + 1)) as [w Hw] by (apply B'; rewrite Qabs_pos by lra; lra). lia.
  - assert (G : (inject_Z m + 1 <= inject_Z n)%Q) by (change 1%Q with (inject_Z 1); rewrite <- inject_Z_plus, <- Zle_Qle; lia).
    assert (n = m + 1). { apply Z.le_antisymm; [|lia]. rewrite Zle_Qle, inject_Z_plus. change (inject_Z 1) with 1%Q. lra. } subst n. rewrite inject_Z_plus in *. change (inject_Z 1) with 1%Q in *.
    assert (Z.Even m) as [u Hu] by (apply B'; rewrite Qabs_neg by lra; lra). assert (Z.Even (m + 1)) as [w Hw] by (apply A'; rewrite Qabs_pos by lra; lra). lia.
Qed.

(** ** digits *)
Lemma number_bound l : are_digits l -> 0 <= number l < 10 ^ Z.of_nat (length l).
Proof.
  induction l as [|d l IH] using rev_ind; intros H; [cbn; lia|]. rewrite number_snoc, app_length. cbn [length]. rewrite Nat2Z.inj_add, Z.pow_add_r by lia. change (10 ^ Z.of_nat 1) with 10.
  assert (0 <= d <= 9) by (apply H, in_app_iff; right; left; reflexivity). specialize (IH (fun x Hx => H x (in_or_app _ _ _ (or_introl Hx)))). lia.
Qed.
Lemma digits_unique l : forall r, are_digits l -> are_digits r -> length l = length r -> number l = number r -> l = r.
Proof.
  induction l as [|d l IH] using rev_ind; intros r Hl Hr Len E.
  - destruct r; [reflexivity|discriminate].
  - destruct r as [|e r _] using rev_ind; [rewrite app_length in Len; cbn in Len; lia|]. rewrite !app_length in Len. rewrite !number_snoc in E.
    assert (0 <= d <= 9) by (apply Hl, in_app_iff; right; left; reflexivity). assert (0 <= e <= 9) by (apply Hr, in_app_iff; right; left; reflexivity).
    rewrite (IH r); [f_equal; f_equal; lia|intros x Hx; apply Hl, in_app_iff; auto|intros x Hx; apply Hr, in_app_iff; auto|cbn in Len; lia|lia].
Qed.

(** ** instants *)
Lemma dig_exact k m : 0 <= m < 10 ^ Z.of_nat k -> are_digits (dig k m) /\ number (dig k m) = m /\ length (dig k m) = k.
Proof. intros H. split; [apply dig_digits|]. rewrite dig_number, dig_length. split; [apply Z.mod_small; exact H|reflexivity]. Qed.
Lemma good_bounds n : let '(y, m, d) := ord2ymd n in 1 <= m <= 12 /\ 1 <= d <= 31.
Proof.
  destruct (step n) as [G _]. destruct (ord2ymd n) as [[y m] d]. unfold goodb in G. rewrite !andb_true_iff, !Z.leb_le in G. pose proof (len_pos y m). lia.
Qed.
Lemma instant_model t : 1 <= t / 86400 + 719163 <= 3652059 ->
  instant t (datetime_text (ord2ymd (t / 86400 + 719163), (t mod 86400 / 3600, t mod 86400 mod 3600 / 60, t mod 86400 mod 60))).
Proof.
  intros H. set (n := t / 86400). set (s := t mod 86400). pose proof (Z.div_mod t 86400 ltac:(lia)) as E. fold n in E. fold s in E. pose proof (Z.mod_pos_bound t 86400 ltac:(lia)) as B. fold s in B.
  pose proof (day_model n) as D. pose proof (good_bounds (n + 719163)) as G. apply year_range in H. fold n in H. unfold year in H. destruct (ord2ymd (n + 719163)) as [[y m] d]. cbn [fst] in H. destruct G as [Gm Gd].
  pose proof (Z.div_mod s 3600 ltac:(lia)) as E1. pose proof (Z.mod_pos_bound s 3600 ltac:(lia)) as B1. set (h := s / 3600) in *. set (r := s mod 3600) in *.
  pose proof (Z.div_mod r 60 ltac:(lia)) as E2. pose proof (Z.mod_pos_bound r 60 ltac:(lia)) as B2. set (mi := r / 60) in *.
  assert (Q : s mod 60 = r mod 60). { rewrite E1. replace (3600 * h + r) with (r + (60 * h) * 60) by lia. rewrite Z.mod_add by lia. reflexivity. }
  rewrite Q. set (se := r mod 60) in *.
  pose proof (dig_exact 4 y ltac:(cbn; lia)) as (A1 & A2 & A3). pose proof (dig_exact 2 m ltac:(cbn; lia)) as (C1 & C2 & C3). pose proof (dig_exact 2 d ltac:(cbn; lia)) as (D1 & D2 & D3).
  pose proof (dig_exact 2 h ltac:(cbn; lia)) as (F1 & F2 & F3). pose proof (dig_exact 2 mi ltac:(cbn; lia)) as (I1 & I2 & I3). pose proof (dig_exact 2 se ltac:(cbn; lia)) as (J1 & J2 & J3).
  exists n, y, m, d, h, mi, se, (dig 4 y), (dig 2 m), (dig 2 d), (dig 2 h), (dig 2 mi), (dig 2 se).
  split; [exact D|]. split; [lia|]. split; [lia|]. split; [lia|]. split; [lia|]. split; [exact H|]. split.
  - intros k l [K|[K|[K|[K|[K|[K|[]]]]]]]; injection K as <- <-; auto.
  - split; [exact A3|]. split; [repeat (constructor; [assumption|]); constructor|]. unfold datetime_text. cbv beta iota. rewrite !dtext_digits by assumption. reflexivity.
Qed.
Lemma instant_year t s : instant t s -> 1 <= t / 86400 + 719163 <= 3652059.
Proof.
  intros (n & y & m & d & h & mi & se & ly & lm & ld & lh & lmi & ls & D & E & H1 & H2 & H3 & Y & _). apply day_only in D.
  assert (t / 86400 = n) as -> by (symmetry; apply (Z.div_unique _ _ _ (3600 * h + 60 * mi + se)); lia). apply year_range. rewrite <- D. exact Y.
Qed.
Lemma instant_unique t a b : instant t a -> instant t b -> a = b.
Proof.
  intros (n & y & m & d & h & mi & se & ly & lm & ld & lh & lmi & ls & D & E & H1 & H2 & H3 & Y & R & Ly & L2 & ->)
         (n' & y' & m' & d' & h' & mi' & se' & ly' & lm' & ld' & lh' & lmi' & ls' & D' & E' & H1' & H2' & H3' & Y' & R' & Ly' & L2' & ->).
  assert (n = n') by lia. subst n'. apply day_only in D, D'. rewrite <- D' in D. injection D as -> -> ->. assert (h = h' /\ mi = mi' /\ se = se') as (-> & -> & ->) by lia.
  rewrite Forall_forall in L2, L2'.
  assert (U : forall k l l', In (k, l) [(y', ly); (m', lm); (d', ld); (h', lh); (mi', lmi); (se', ls)] -> In (k, l') [(y', ly'); (m', lm'); (d', ld'); (h', lh'); (mi', lmi'); (se', ls')] -> length l = length l' -> l = l').
  { intros k l l' Hl Hl' Len. destruct (R k l Hl) as [A1 A2]. destruct (R' k l' Hl') as [B1 B2]. apply digits_unique; [exact A1|exact B1|exact Len|congruence]. }
  rewrite (U y' ly ly'), (U m' lm lm'), (U d' ld ld'), (U h' lh lh'), (U mi' lmi lmi'), (U se' ls ls'); try (simpl; tauto); try congruence;
    (rewrite L2 by (simpl; tauto); rewrite L2' by (simpl; tauto); reflexivity).
Qed.

Lemma date_ok sec s : date sec = Ok s <-> exists t, nearest sec t /\ instant t s.
Proof.
  unfold date, utc. set (t := round sec). split.
  - destruct ((1 <=? t / 86400 + 719163) && (t / 86400 + 719163 <=? 3652059)) eqn:C; cbn [check bind]; [|discriminate]. intros E. injection E as <-.
    apply andb_true_iff in C as [C1 C2]. apply Z.leb_le in C1, C2. exists t. split; [apply round_nearest|]. apply instant_model. lia.
  - intros (t' & N & I). pose proof (nearest_unique sec t' t N (round_nearest sec)). subst t'. pose proof (instant_year t s I) as Y.
    destruct (Z.leb_spec 1 (t / 86400 + 719163)); [|lia]. destruct (Z.leb_spec (t / 86400 + 719163) 3652059); [|lia]. cbn [check bind andb]. f_equal. eapply instant_unique; [|exact I]. apply instant_model. exact Y.
Qed.
Lemma date_err sec e : date sec = Err e <-> e = ValueError /\ exists t, nearest sec t /\ (t < -62135596800 \/ 253402300799 < t).
Proof.
  unfold date, utc. set (t := round sec). pose proof (Z.div_mod t 86400 ltac:(lia)) as E. pose proof (Z.mod_pos_bound t 86400 ltac:(lia)) as B. split.
  - destruct ((1 <=? t / 86400 + 719163) && (t / 86400 + 719163 <=? 3652059)) eqn:C; cbn [check bind]; [discriminate|]. intros H. injection H as <-. split; [reflexivity|]. exists t. split; [apply round_nearest|].
    apply andb_false_iff in C. rewrite !Z.leb_gt in C. lia.
  - intros (-> & t' & N & H). pose proof (nearest_unique sec t' t N (round_nearest sec)). subst t'.
    destruct (Z.leb_spec 1 (t / 86400 + 719163)); [|reflexivity]. destruct (Z.leb_spec (t / 86400 + 719163) 3652059); [lia|reflexivity].
Qed.
