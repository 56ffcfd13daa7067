(** Proofs about calibration files. *)
From Coq Require Import QArith Qcanon.
From Verif Require Import Base BaseLemmas Arith OrdLaws QcLemmas PathModel DataModel CalModel SpecCal.
Open Scope nat_scope.

(** ** characters *)
Lemma all_ascii (P : ascii -> bool) : forallb P (map ascii_of_nat (seq 0 256)) = true -> forall c, P c = true.
Proof.
  intros H c. rewrite forallb_forall in H. apply H. apply in_map_iff. exists (nat_of_ascii c).
  split; [apply ascii_nat_embedding|]. apply in_seq. pose proof (nat_ascii_bounded c). lia.
Qed.
(** white space, words and digits as the program tests them *)
Definition spaces0 (l : text) : Prop := Forall (fun c => is_space c = true) l.
Definition says0 (w1 w2 l : text) : Prop :=
  exists s1 a s2 b rest, l = s1 ++ a ++ s2 ++ b ++ rest /\
  spaces0 s1 /\ lower a = w1 /\ s2 <> [] /\ spaces0 s2 /\ lower b = w2.

Lemma In_dec_iff {X} (eqb : X -> X -> bool) (H : forall x y, eqb x y = true <-> x = y) x l : In x l <-> existsb (eqb x) l = true.
Proof. rewrite existsb_exists. split; [intros Hi; exists x; split; [exact Hi|apply H; reflexivity]|intros (y & Hy & E); apply H in E; subst; exact Hy]. Qed.
Lemma white_iff c : white c <-> is_space c = true.
Proof.
  unfold white. rewrite (In_dec_iff Nat.eqb Nat.eqb_eq).
  assert (E : existsb (Nat.eqb (nat_of_ascii c)) [9; 10; 11; 12; 13; 28; 29; 30; 31; 32; 133; 160] = is_space c).
  { apply Bool.eqb_prop. revert c. apply all_ascii. vm_compute. reflexivity. }
  rewrite E. reflexivity.
Qed.
Lemma spaces_iff l : spaces l <-> spaces0 l.
Proof. split; intros H; (eapply Forall_impl; [|exact H]); intros c Hc; apply white_iff; exact Hc. Qed.
Lemma digit_iff c : digit c <-> is_digit c = true.
Proof.
  unfold digit. rewrite (In_dec_iff Ascii.eqb Ascii.eqb_eq).
  assert (E : existsb (Ascii.eqb c) (txt "0123456789") = is_digit c).
  { apply Bool.eqb_prop. revert c. apply all_ascii. vm_compute. reflexivity. }
  rewrite E. reflexivity.
Qed.
(** a word without capitals *)
Definition small (w : text) : Prop := lower w = w.
Lemma small_spells w a : small w -> (spells w a <-> lower a = w).
Proof.
  unfold small, spells. revert a. induction w as [|x w IH]; intros a H.
  - split; [intros H0; inversion H0; reflexivity|]. destruct a; [constructor|discriminate].
  - injection H as Hx Hw. specialize (fun a => IH a Hw).
    assert (G : forall c, (c = x \/ In (x, c) letters) <-> lower_char c = x).
    { intros c. clear -Hx. set (eqb := fun p q : ascii * ascii => Ascii.eqb (fst p) (fst q) && Ascii.eqb (snd p) (snd q)).
      assert (He : forall p q, eqb p q = true <-> p = q).
      { intros [a b] [a' b']. unfold eqb. cbn [fst snd]. rewrite andb_true_iff, !Ascii.eqb_eq. split; [intros (-> & ->); reflexivity|intros E; injection E; auto]. }
      rewrite (In_dec_iff eqb He), <- !Ascii.eqb_eq, <- orb_true_iff. revert Hx.
      assert (E : implb (Ascii.eqb (lower_char x) x) (Bool.eqb (Ascii.eqb c x || existsb (eqb (x, c)) letters) (Ascii.eqb (lower_char c) x)) = true).
      { revert c. apply all_ascii. revert x. apply all_ascii. vm_compute. reflexivity. }
      intros Hx. rewrite <- Ascii.eqb_eq in Hx. rewrite Hx in E. apply Bool.eqb_prop in E. rewrite E. reflexivity. }
    split.
    + intros H0. inversion H0 as [|? c ? a' Hc Ha]; subst. simpl. f_equal; [apply G; exact Hc|apply IH; exact Ha].
    + destruct a as [|c a]; [discriminate|]. intros H0. injection H0 as Hc Ha. constructor; [apply G; exact Hc|apply IH; exact Ha].
Qed.
Lemma says_iff w1 w2 l : small w1 -> small w2 -> (says w1 w2 l <-> says0 w1 w2 l).
Proof.
  intros H1 H2. split; intros (s1 & a & s2 & b & rest & -> & Ha & Hb & Hn & Hc & Hd); exists s1, a, s2, b, rest;
    (split; [reflexivity|]); (split; [apply spaces_iff; exact Ha|]); (split; [apply (small_spells _ _ H1); exact Hb|]);
    (split; [exact Hn|]); (split; [apply spaces_iff; exact Hc|apply (small_spells _ _ H2); exact Hd]).
Qed.

Lemma space_lower c : is_space (lower_char c) = is_space c.
Proof.
  apply Bool.eqb_prop. revert c. apply all_ascii. vm_compute. reflexivity.
Qed.

Lemma lstrip_spec l : exists s, spaces0 s /\ l = s ++ lstrip l /\ match lstrip l with c :: _ => is_space c = false | [] => True end.
Proof.
  induction l as [|c l IH]; simpl.
  - exists []. repeat split. constructor.
  - destruct (is_space c) eqn:E.
    + destruct IH as (s & H1 & H2 & H3). exists (c :: s). split; [constructor; assumption|]. split; [simpl; congruence|exact H3].
    + exists []. split; [constructor|]. split; [reflexivity|exact E].
Qed.

Lemma lstrip_app s l : spaces0 s -> lstrip (s ++ l) = lstrip l.
Proof. induction 1 as [|c s H1 H2 IH]; simpl; [reflexivity|]. rewrite H1. exact IH. Qed.
Lemma lstrip_head c l : is_space c = false -> lstrip (c :: l) = c :: l.
Proof. intros H. simpl. rewrite H. reflexivity. Qed.

Lemma strip_spec l : exists s1 s2, spaces0 s1 /\ spaces0 s2 /\ l = s1 ++ strip l ++ s2 /\
  match strip l with c :: _ => is_space c = false | [] => True end.
Proof.
  unfold strip. destruct (lstrip_spec l) as (s1 & H1 & H2 & H3).
  destruct (lstrip_spec (rev (lstrip l))) as (s2 & H4 & H5 & H6).
  exists s1, (rev s2). split; [exact H1|]. split; [apply Forall_rev; exact H4|].
  assert (E : lstrip l = rev (lstrip (rev (lstrip l))) ++ rev s2).
  { rewrite <- rev_app_distr, <- H5, rev_involutive. reflexivity. }
  split; [rewrite <- E; exact H2|].
  destruct (rev (lstrip (rev (lstrip l)))) as [|c r] eqn:Er; [exact I|]. rewrite E in H3. exact H3.
Qed.

Lemma blank_spaces0 l : blank l = true <-> spaces0 l.
Proof.
  unfold blank. destruct (strip_spec l) as (s1 & s2 & H1 & H2 & H3 & H4). destruct (strip l) as [|c r] eqn:E.
  - split; [intros _|reflexivity]. rewrite H3. apply Forall_app. auto.
  - split; [discriminate|]. intros H. rewrite H3 in H. apply Forall_app in H as (_ & H). inversion H; subst. congruence.
Qed.

Lemma prefix_of_spec p l r : prefix_of p l = Some r <-> l = p ++ r.
Proof.
  revert l. induction p as [|a p IH]; intros l; simpl.
  - split; [intros H; injection H; auto|intros ->; reflexivity].
  - destruct l as [|b l]; [split; discriminate|]. unfold is. destruct (Ascii.eqb_spec a b).
    + subst. rewrite IH. split; [intros ->; reflexivity|intros H; injection H; auto].
    + split; [discriminate|]. intros H. injection H. congruence.
Qed.

Definition word (w : text) : Prop := Forall (fun c => is_space c = false) w /\ w <> [].

Lemma match_words_spec w1 w2 l : word w2 ->
  match_words w1 w2 l = true <-> exists s rest, s <> [] /\ spaces0 s /\ l = w1 ++ s ++ w2 ++ rest.
Proof.
  intros (Hw & Hne). unfold match_words. split.
  - destruct (prefix_of w1 l) as [[|c r]|] eqn:E1; try discriminate. intros H. apply andb_true_iff in H as (Hc & H).
    apply prefix_of_spec in E1. destruct (prefix_of w2 (lstrip r)) as [rest|] eqn:E2; [|discriminate]. apply prefix_of_spec in E2.
    destruct (lstrip_spec r) as (s & H1 & H2 & _). exists (c :: s), rest. split; [discriminate|]. split; [constructor; assumption|].
    rewrite E1, H2, E2. reflexivity.
  - intros (s & rest & Hs & Hsp & ->). destruct s as [|c s]; [congruence|]. inversion Hsp as [|c' s' Hc1 Hs1]; subst.
    rewrite (proj2 (prefix_of_spec w1 _ ((c :: s) ++ w2 ++ rest)) eq_refl).
    change (is_space c && match prefix_of w2 (lstrip (s ++ w2 ++ rest)) with Some _ => true | None => false end = true).
    rewrite Hc1. rewrite lstrip_app by assumption. destruct w2 as [|d w2]; [congruence|]. inversion Hw; subst.
    assert (E : lstrip ((d :: w2) ++ rest) = (d :: w2) ++ rest) by (apply lstrip_head; assumption).
    rewrite E, (proj2 (prefix_of_spec (d :: w2) _ rest) eq_refl). reflexivity.
Qed.

Lemma lower_app a b : lower (a ++ b) = lower a ++ lower b. Proof. apply map_app. Qed.
Lemma lower_split l a b : lower l = a ++ b -> exists a' b', l = a' ++ b' /\ lower a' = a /\ lower b' = b.
Proof.
  intros H. exists (firstn (length a) l), (skipn (length a) l). split; [symmetry; apply firstn_skipn|]. unfold lower in *.
  rewrite <- firstn_map, <- skipn_map, H. rewrite firstn_app, Nat.sub_diag, firstn_all, skipn_app, Nat.sub_diag, skipn_all.
  simpl. rewrite app_nil_r. auto.
Qed.
Lemma spaces_lower s : spaces0 (lower s) <-> spaces0 s.
Proof.
  unfold spaces0, lower. rewrite Forall_map. split; intros H; eapply Forall_impl; try exact H; intros c Hc; simpl in *;
    rewrite space_lower in *; exact Hc.
Qed.

Lemma rstrip_app l s : spaces0 s -> rev (lstrip (rev (l ++ s))) = rev (lstrip (rev l)).
Proof. intros H. rewrite rev_app_distr, lstrip_app; [reflexivity|]. apply Forall_rev. exact H. Qed.

Lemma rstrip_last y e : is_space e = false -> rev (lstrip (rev (y ++ [e]))) = y ++ [e].
Proof. intros H. rewrite rev_app_distr. cbn [rev app]. rewrite lstrip_head by exact H. cbn [rev]. rewrite rev_involutive. reflexivity. Qed.

Lemma rstrip_word l d b rest : is_space d = false -> exists rest',
  rev (lstrip (rev (l ++ (b ++ [d]) ++ rest))) = l ++ (b ++ [d]) ++ rest'.
Proof.
  intros Hd. destruct (lstrip_spec (rev rest)) as (s & H1 & H2 & H3).
  assert (E : rest = rev (lstrip (rev rest)) ++ rev s).
  { rewrite <- rev_app_distr, <- H2, rev_involutive. reflexivity. }
  exists (rev (lstrip (rev rest))). rewrite E at 1.
  replace (l ++ (b ++ [d]) ++ rev (lstrip (rev rest)) ++ rev s) with ((l ++ (b ++ [d]) ++ rev (lstrip (rev rest))) ++ rev s)
    by (rewrite <- !app_assoc; reflexivity).
  rewrite rstrip_app by (apply Forall_rev; exact H1).
  destruct (lstrip (rev rest)) as [|c r]; cbn [rev].
  - rewrite app_nil_r, app_assoc. apply rstrip_last. exact Hd.
  - rewrite !app_assoc. apply rstrip_last. exact H3.
Qed.

Lemma mark_says0 w1 w2 l : word w1 -> word w2 ->
  match_words w1 w2 (strip (lower l)) = true <-> says0 w1 w2 l.
Proof.
  intros Hw1 Hw2. rewrite (match_words_spec _ _ _ Hw2). split.
  - intros (s & rest & Hs & Hsp & E). destruct (strip_spec (lower l)) as (s1 & s2 & H1 & H2 & H3 & _). rewrite E in H3.
    apply lower_split in H3 as (x1 & y & -> & E1 & H3). rewrite <- !app_assoc in H3.
    apply lower_split in H3 as (a & y2 & -> & E2 & H3). apply lower_split in H3 as (x2 & y3 & -> & E3 & H3).
    apply lower_split in H3 as (b & y4 & -> & E4 & _).
    exists x1, a, x2, b, y4. split; [reflexivity|]. split; [apply spaces_lower; congruence|]. split; [exact E2|].
    split; [intros ->; apply Hs; rewrite <- E3; reflexivity|]. split; [apply spaces_lower; congruence|exact E4].
  - intros (s1 & a & s2 & b & rest & -> & H1 & Ha & Hne & H2 & Hb). rewrite !lower_app, Ha, Hb.
    unfold strip. rewrite lstrip_app by (apply spaces_lower; exact H1).
    destruct Hw1 as (Hw1 & Hn1). destruct w1 as [|c w1]; [congruence|]. inversion Hw1; subst. simpl app. rewrite lstrip_head by assumption.
    destruct Hw2 as (Hw2 & Hn2). destruct (exists_last Hn2) as (b' & d & Eb). rewrite Eb in *.
    apply Forall_app in Hw2 as (_ & Hd). inversion Hd; subst.
    replace (c :: w1 ++ lower s2 ++ (b' ++ [d]) ++ lower rest) with ((c :: w1 ++ lower s2) ++ (b' ++ [d]) ++ lower rest)
      by (simpl; rewrite <- app_assoc; reflexivity).
    destruct (rstrip_word (c :: w1 ++ lower s2) d b' (lower rest) ltac:(assumption)) as (rest' & ->).
    exists (lower s2), rest'. split; [destruct s2; [congruence|discriminate]|]. split; [apply spaces_lower; exact H2|].
    simpl. rewrite <- app_assoc. reflexivity.
Qed.

Lemma chopper_word : word (txt "chopper"). Proof. split; [repeat constructor|discriminate]. Qed.
Lemma on_word (on : bool) : word (txt (if on then "on" else "off")). Proof. destruct on; (split; [repeat constructor|discriminate]). Qed.
Lemma mark_line_says on l : mark_line on l = true <-> says (txt "chopper") (txt (if on then "on" else "off")) l.
Proof.
  rewrite says_iff by (destruct on; reflexivity). apply mark_says0; [exact chopper_word|apply on_word].
Qed.
Lemma blank_spaces l : blank l = true <-> spaces l.
Proof. rewrite spaces_iff. apply blank_spaces0. Qed.

(** ** sections *)
Lemma first_index_some {X} (f : X -> bool) : forall l i k, first_index f l i = Some k <->
  exists a x b, l = a ++ x :: b /\ k = i + length a /\ Forall (fun y => f y = false) a /\ f x = true.
Proof.
  induction l as [|y l IH]; intros i k; simpl.
  - split; [discriminate|]. intros (a & x & b & E & _). destruct a; discriminate.
  - destruct (f y) eqn:E.
    + split; [intros H; injection H as <-; exists [], y, l; simpl; repeat split; [lia|constructor|exact E]|].
      intros (a & x & b & El & -> & Ha & Hx). destruct a as [|z a]; [simpl; f_equal; lia|].
      injection El as -> _. inversion Ha; subst. congruence.
    + rewrite IH. split.
      * intros (a & x & b & -> & -> & Ha & Hx). exists (y :: a), x, b. simpl. repeat split; [lia|constructor; assumption|exact Hx].
      * intros (a & x & b & El & -> & Ha & Hx). destruct a as [|z a]; [injection El as -> _; congruence|].
        injection El as -> ->. inversion Ha; subst. exists a, x, b. simpl. repeat split; [lia|assumption|exact Hx].
Qed.
Lemma first_index_none {X} (f : X -> bool) : forall l i, first_index f l i = None <-> Forall (fun y => f y = false) l.
Proof.
  induction l as [|y l IH]; intros i; simpl; [split; constructor|]. destruct (f y) eqn:E.
  - split; [discriminate|]. intros H. inversion H; congruence.
  - rewrite IH. split; [constructor; assumption|]. intros H; inversion H; assumption.
Qed.

Lemma not_true b (P : Prop) : (b = true <-> P) -> (b = false <-> ~ P).
Proof. destruct b; intuition congruence. Qed.

Lemma Forall_iff {X} (P Q : X -> Prop) l : (forall x, P x <-> Q x) -> Forall P l <-> Forall Q l.
Proof. intros H. split; apply Forall_impl; intros; apply H; assumption. Qed.

Lemma section_ok on lines body : section lines on = Ok body <-> section_of on lines body.
Proof.
  unfold section, start_stop, section_of. set (mark := says (txt "chopper") (txt (if on then "on" else "off"))).
  assert (Hm : forall l, mark_line on l = false <-> ~ mark l) by (intros; apply not_true, mark_line_says).
  assert (Hb : forall l, blank l = false <-> ~ spaces l) by (intros; apply not_true, blank_spaces).
  split.
  - intros H. apply bind_ok in H as ([start stop] & H & Hk). injection Hk as <-. apply bind_ok in H as (st & Hs & H). injection H as -> <-.
    apply of_option_ok in Hs. apply first_index_some in Hs as (a & m & b & -> & -> & Ha & Hmk).
    assert (Es : skipn (1 + length a) (a ++ m :: b) = b).
    { rewrite skipn_app. replace (1 + length a - length a) with 1 by lia. rewrite skipn_all2 by lia. reflexivity. }
    rewrite Es. exists a, m. destruct (first_index blank b (1 + length a)) as [k|] eqn:Ek.
    + apply first_index_some in Ek as (c & x & d & -> & -> & Hc & Hx). exists (x :: d).
      replace (1 + length a + length c - (1 + length a)) with (length c) by lia.
      rewrite firstn_app, Nat.sub_diag, firstn_all. simpl. rewrite app_nil_r.
      split; [reflexivity|]. split; [eapply Forall_iff; [|exact Ha]; intros; symmetry; apply Hm|]. split; [apply mark_line_says; exact Hmk|].
      split; [eapply Forall_iff; [|exact Hc]; intros; symmetry; apply Hb|]. right. exists x, d. split; [reflexivity|]. apply blank_spaces. exact Hx.
    + apply first_index_none in Ek. exists []. rewrite app_nil_r.
      split; [reflexivity|]. split; [eapply Forall_iff; [|exact Ha]; intros; symmetry; apply Hm|]. split; [apply mark_line_says; exact Hmk|].
      split; [eapply Forall_iff; [|exact Ek]; intros; symmetry; apply Hb|]. left. reflexivity.
  - intros (a & m & after & -> & Ha & Hmk & Hbody & Hafter).
    assert (E1 : first_index (mark_line on) (a ++ m :: body ++ after) 1 = Some (1 + length a)).
    { apply first_index_some. exists a, m, (body ++ after). split; [reflexivity|]. split; [reflexivity|].
      split; [eapply Forall_iff; [|exact Ha]; apply Hm|apply mark_line_says; exact Hmk]. }
    rewrite E1. cbn [of_option bind].
    assert (Es : skipn (1 + length a) (a ++ m :: body ++ after) = body ++ after).
    { rewrite skipn_app. replace (1 + length a - length a) with 1 by lia. rewrite skipn_all2 by lia. reflexivity. }
    rewrite Es. assert (Hbd : Forall (fun l => blank l = false) body) by (eapply Forall_iff; [|exact Hbody]; apply Hb).
    destruct Hafter as [->|(l & rest & -> & Hl)].
    + rewrite app_nil_r. rewrite (proj2 (first_index_none _ _ _) Hbd). reflexivity.
    + assert (E2 : first_index blank (body ++ l :: rest) (1 + length a) = Some (1 + length a + length body)).
      { apply first_index_some. exists body, l, rest. repeat split; [exact Hbd|apply blank_spaces; exact Hl]. }
      rewrite E2. replace (1 + length a + length body - (1 + length a)) with (length body) by lia.
      rewrite firstn_app, Nat.sub_diag, firstn_all. simpl. rewrite app_nil_r. reflexivity.
Qed.

Lemma section_err (on : bool) lines : Forall (fun l => ~ says (txt "chopper") (txt (if on then "on" else "off")) l) lines <->
  section lines on = Err StopIteration.
Proof.
  rewrite (Forall_iff _ (fun l => mark_line on l = false)) by (intros; symmetry; apply not_true, mark_line_says).
  rewrite <- (first_index_none _ _ 1). unfold section, start_stop. destruct (first_index (mark_line on) lines 1); simpl; split; congruence.
Qed.

(** ** versions *)
Lemma mfs_head l v : match prefix_of (txt "MFS") l with
    | Some (a :: b :: _) => if is_digit a && is_digit b then Some (txt "MFS" ++ [a; b]) else None
    | _ => None end = Some v <-> version_at l 0 v.
Proof.
  split.
  - destruct (prefix_of (txt "MFS") l) as [[|a [|b r]]|] eqn:E; try discriminate. destruct (is_digit a) eqn:Ha; [|discriminate].
    destruct (is_digit b) eqn:Hb; [|discriminate]. intros H. injection H as <-. apply prefix_of_spec in E.
    exists [], r, a, b. rewrite E. rewrite !digit_iff. auto.
  - intros (x & b & d1 & d2 & -> & Hx & -> & H1 & H2). destruct x; [|discriminate].
    rewrite digit_iff in H1, H2. rewrite (proj2 (prefix_of_spec (txt "MFS") _ (d1 :: d2 :: b))) by reflexivity. rewrite H1, H2. reflexivity.
Qed.

Lemma version_tail c l i v : version_at (c :: l) (S i) v <-> version_at l i v.
Proof.
  split.
  - intros (a & b & d1 & d2 & E & Hl & Hv). destruct a as [|x a]; [discriminate|]. injection E as -> ->. exists a, b, d1, d2. simpl in Hl. auto.
  - intros (a & b & d1 & d2 & -> & <- & Hv). exists (c :: a), b, d1, d2. auto.
Qed.

Lemma mfs_spec l : match mfs l with Some v => last_version l v | None => forall i v, ~ version_at l i v end.
Proof.
  induction l as [|c l IH].
  - intros i v (a & b & d1 & d2 & E & _ & -> & _). destruct a; discriminate.
  - cbn [mfs]. destruct (mfs l) as [v|].
    + destruct IH as (i & Hi & Hmax). exists (S i). split; [apply version_tail; exact Hi|].
      intros [|j] w Hj; [lia|]. rewrite version_tail in Hj. specialize (Hmax _ _ Hj). lia.
    + destruct (match prefix_of (txt "MFS") (c :: l) with
        | Some (a :: b :: _) => if is_digit a && is_digit b then Some (txt "MFS" ++ [a; b]) else None
        | _ => None end) as [v|] eqn:E.
      * apply mfs_head in E. exists 0. split; [exact E|]. intros [|j] w Hj; [lia|]. rewrite version_tail in Hj. destruct (IH _ _ Hj).
      * intros [|i] v H; [apply mfs_head in H; congruence|]. rewrite version_tail in H. destruct (IH _ _ H).
Qed.

Lemma version_fun l i v w : version_at l i v -> version_at l i w -> v = w.
Proof.
  intros (a & b & d1 & d2 & E & H1 & Hv & _) (a' & b' & e1 & e2 & E' & H1' & Hw & _).
  assert (L : length v = length w) by (subst; reflexivity).
  rewrite E in E'. assert (a = a' /\ v ++ b = w ++ b') as (_ & E2).
  { clear -E' H1 H1'. subst i. revert a' H1' E'. induction a as [|x a IH]; intros [|y a'] H E'; try discriminate; [auto|].
    injection E' as -> E'. simpl in H. injection H as H. destruct (IH _ H E') as (-> & ?). auto. }
  apply (f_equal (firstn (length v))) in E2. rewrite firstn_app, Nat.sub_diag, firstn_all in E2. rewrite L in E2.
  rewrite firstn_app, Nat.sub_diag, firstn_all in E2. simpl in E2. rewrite !app_nil_r in E2. exact E2.
Qed.

Lemma mfs_iff l v : mfs l = Some v <-> last_version l v.
Proof.
  pose proof (mfs_spec l) as H. split.
  - intros E. rewrite E in H. exact H.
  - intros (i & Hi & Hmax). destruct (mfs l) as [w|]; [|destruct (H _ _ Hi)]. destruct H as (j & Hj & Hmax').
    assert (i = j) by (apply Nat.le_antisymm; [eapply Hmax'; exact Hi|eapply Hmax; exact Hj]). subst j. f_equal. eapply version_fun; eassumption.
Qed.
