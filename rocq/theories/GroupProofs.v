(** Grouping of consecutive flags, and ranges of runs. *)
From Verif Require Import Base BaseLemmas Arith SyncModel SetModel SpecConsec.
Open Scope nat_scope.

(** ** [group_indices] *)
Section Groups.
(** flag number [j] of the list [l] whose first flag has number [i] *)
Definition flag (l : list bool) (i j : nat) : option bool := nth_error l (j - i).
Definition stop_at (l : list bool) (i b : nat) (e : option nat) : Prop :=
  (b < i + length l /\ flag l i b = Some false /\ e = Some (b + 1)) \/ (b = i + length l /\ e = None).

Lemma gif_spec l : forall i,
  (forall s e, In (s, e) (group_indices_from l i None) <->
     exists b, i <= s < b /\ b <= i + length l /\ (forall j, s <= j < b -> flag l i j = Some true) /\
       (s = i \/ flag l i (s - 1) = Some false) /\ stop_at l i b e) /\
  (forall st s e, In (s, e) (group_indices_from l i (Some st)) <->
     (s = st /\ exists b, i <= b <= i + length l /\ (forall j, i <= j < b -> flag l i j = Some true) /\ stop_at l i b e) \/
     (exists b, i < s < b /\ b <= i + length l /\ (forall j, s <= j < b -> flag l i j = Some true) /\
       flag l i (s - 1) = Some false /\ stop_at l i b e)).
Proof.
  induction l as [|x l IH]; intros i.
  - split; [intros s e|intros st s e]; simpl.
    + split; [intros []|]. intros (b & H1 & H2 & _). simpl in *. lia.
    + split.
      * intros [E|[]]. injection E as <- <-. left. split; [reflexivity|]. exists i. split; [lia|]. split; [intros; lia|].
        right. split; [simpl; lia|reflexivity].
      * intros [(-> & b & H1 & H2 & H3)|(b & H1 & H2 & _)]; [|simpl in *; lia]. left. destruct H3 as [(H & _)|(_ & ->)]; [simpl in *; lia|reflexivity].
  - destruct (IH (S i)) as [IHn IHs]. clear IH.
    assert (F : forall j, S i <= j -> flag (x :: l) i j = flag l (S i) j).
    { intros j Hj. unfold flag. replace (j - i) with (S (j - S i)) by lia. reflexivity. }
    assert (F0 : flag (x :: l) i i = Some x) by (unfold flag; rewrite Nat.sub_diag; reflexivity).
    assert (St : forall b e, S i <= b -> stop_at (x :: l) i b e <-> stop_at l (S i) b e).
    { intros b e Hb. unfold stop_at. rewrite F by exact Hb. simpl length. replace (i + S (length l)) with (S i + length l) by lia. reflexivity. }
    (* shared: a block that begins later *)
    assert (Later : forall s e, (exists b, i < s < b /\ b <= i + length (x :: l) /\ (forall j, s <= j < b -> flag (x :: l) i j = Some true) /\
                       flag (x :: l) i (s - 1) = Some false /\ stop_at (x :: l) i b e) <->
                    (exists b, S i <= s < b /\ b <= S i + length l /\ (forall j, s <= j < b -> flag l (S i) j = Some true) /\
                       ((s = S i /\ x = false) \/ (S i < s /\ flag l (S i) (s - 1) = Some false)) /\ stop_at l (S i) b e)).
    { intros s e. split; intros (b & H1 & H2 & H3 & H4 & H5); exists b; simpl length in *.
      - split; [lia|]. split; [lia|]. split; [intros j Hj; rewrite <- F by lia; apply H3, Hj|]. split; [|apply St; [lia|exact H5]].
        destruct (Nat.eq_dec s (S i)) as [->|Hne].
        + left. replace (S i - 1) with i in H4 by lia. rewrite F0 in H4. injection H4 as ->. auto.
        + right. split; [lia|]. rewrite <- F by lia. exact H4.
      - split; [lia|]. split; [lia|]. split; [intros j Hj; rewrite F by lia; apply H3, Hj|]. split; [|apply St; [lia|exact H5]].
        destruct H4 as [(-> & ->)|(H4 & H6)]; [replace (S i - 1) with i by lia; exact F0|rewrite F by lia; exact H6]. }
    split; [intros s e|intros st s e]; simpl group_indices_from.
    + destruct x.
      * rewrite IHs. split.
        -- intros [(-> & b & H1 & H2 & H3)|H].
           ++ exists b. split; [lia|]. split; [simpl; lia|]. split; [|split; [auto|apply St; [lia|exact H3]]].
              intros j Hj. destruct (Nat.eq_dec j i) as [->|]; [exact F0|]. rewrite F by lia. apply H2. lia.
           ++ destruct H as (b & H1 & H2 & H3 & H4 & H5). destruct (proj2 (Later s e)) as (b' & G1 & G2 & G3 & G4 & G5).
              { exists b. split; [lia|]. split; [exact H2|]. split; [exact H3|]. split; [right; split; [lia|exact H4]|exact H5]. }
              exists b'. split; [lia|]. auto.
        -- intros (b & H1 & H2 & H3 & H4 & H5). destruct (Nat.eq_dec s i) as [->|Hne].
           ++ left. split; [reflexivity|]. exists b. simpl length in H2. split; [lia|]. split; [intros j Hj; rewrite <- F by lia; apply H3; lia|].
              apply St; [lia|exact H5].
           ++ right. destruct H4 as [H4|H4]; [congruence|].
              destruct (proj1 (Later s e)) as (b' & G1 & G2 & G3 & G4 & G5); [exists b; split; [lia|]; auto|].
              exists b'. destruct G4 as [(_ & G4)|(G4 & G6)]; [discriminate|]. split; [lia|]. auto.
      * rewrite IHn. split.
        -- intros (b & H1 & H2 & H3 & H4 & H5). destruct (proj2 (Later s e)) as (b' & G1 & G2 & G3 & G4 & G5).
           { exists b. split; [lia|]. split; [exact H2|]. split; [exact H3|]. split; [|exact H5].
             destruct (Nat.eq_dec s (S i)); [left; auto|right; split; [lia|]]. destruct H4; [congruence|assumption]. }
           exists b'. split; [lia|]. auto.
        -- intros (b & H1 & H2 & H3 & H4 & H5). assert (s <> i) by (intros ->; rewrite H3 in F0 by lia; discriminate).
           destruct H4 as [H4|H4]; [congruence|].
           destruct (proj1 (Later s e)) as (b' & G1 & G2 & G3 & G4 & G5); [exists b; split; [lia|]; auto|].
           exists b'. split; [lia|]. split; [exact G2|]. split; [exact G3|]. split; [|exact G5].
           destruct G4 as [(G4 & _)|(_ & G4)]; auto.
    + destruct x.
      * rewrite IHs. split.
        -- intros [(-> & b & H1 & H2 & H3)|H].
           ++ left. split; [reflexivity|]. exists b. simpl length. split; [lia|]. split; [|apply St; [lia|exact H3]].
              intros j Hj. destruct (Nat.eq_dec j i) as [->|]; [exact F0|]. rewrite F by lia. apply H2. lia.
           ++ right. apply Later. destruct H as (b & H1 & H2 & H3 & H4 & H5). exists b. split; [lia|]. split; [exact H2|]. split; [exact H3|].
              split; [right; split; [lia|exact H4]|exact H5].
        -- intros [(-> & b & H1 & H2 & H3)|H].
           ++ left. split; [reflexivity|]. exists b. simpl length in H1.
              assert (b <> i).
              { intros ->. destruct H3 as [(_ & G & _)|(G & _)]; [rewrite F0 in G; discriminate|simpl in G; lia]. }
              split; [lia|]. split; [intros j Hj; rewrite <- F by lia; apply H2; lia|]. apply St; [lia|exact H3].
           ++ right. apply Later in H as (b & H1 & H2 & H3 & H4 & H5). destruct H4 as [(_ & H4)|(H4 & H6)]; [discriminate|].
              exists b. split; [lia|]. auto.
      * simpl. rewrite IHn. split.
        -- intros [E|H].
           ++ injection E as <- <-. left. split; [reflexivity|]. exists i. split; [lia|]. split; [intros; lia|]. left. simpl length. split; [lia|]. auto.
           ++ right. apply Later. destruct H as (b & H1 & H2 & H3 & H4 & H5). exists b. split; [lia|]. split; [exact H2|]. split; [exact H3|].
              split; [|exact H5]. destruct (Nat.eq_dec s (S i)); [left; auto|right; split; [lia|]]. destruct H4; [congruence|assumption].
        -- intros [(-> & b & H1 & H2 & H3)|H].
           ++ left. assert (b = i) as ->.
              { destruct (Nat.eq_dec b i); [assumption|]. rewrite H2 in F0 by lia. discriminate. }
              destruct H3 as [(_ & _ & ->)|(G & _)]; [reflexivity|simpl in G; lia].
           ++ right. apply Later in H as (b & H1 & H2 & H3 & H4 & H5). exists b. split; [lia|]. split; [exact H2|]. split; [exact H3|]. split; [|exact H5].
              destruct H4 as [(H4 & _)|(_ & H4)]; auto.
Qed.

Theorem group_indices_spec l s e : In (s, e) (group_indices l) <->
  exists b, block l s b /\ ((b < length l /\ e = Some (b + 1)) \/ (b = length l /\ e = None)).
Proof.
  unfold group_indices. rewrite (proj1 (gif_spec l 0)). unfold stop_at, flag, block. simpl. split.
  - intros (b & H1 & H2 & H3 & H4 & H5). exists b. split.
    + split; [lia|]. split; [intros j Hj; rewrite <- (H3 j Hj); f_equal; lia|].
      split; [destruct H4 as [->|H4]; [auto|right; rewrite Nat.sub_0_r in H4; exact H4]|].
      destruct H5 as [(G1 & G2 & _)|(G1 & _)]; [right; rewrite Nat.sub_0_r in G2; exact G2|auto].
    + tauto.
  - intros (b & (H1 & H2 & H3 & H4) & H5). exists b. split; [lia|]. split; [lia|].
    split; [intros j Hj; rewrite Nat.sub_0_r; apply H2, Hj|]. split; [rewrite Nat.sub_0_r; exact H3|].
    destruct H5 as [(G1 & ->)|(G1 & ->)]; [left|right; auto]. split; [exact G1|]. split; [|reflexivity]. rewrite Nat.sub_0_r.
    destruct H4 as [->|H4]; [lia|exact H4].
Qed.

(** each group ends before the next one begins *)
Definition before_group (g h : nat * option nat) : Prop := exists e, snd g = Some e /\ e <= fst h.
Lemma gif_sorted l : forall i start, (forall st, start = Some st -> st <= i) ->
  StronglySorted before_group (group_indices_from l i start) /\
  (start = None -> forall g, In g (group_indices_from l i start) -> i <= fst g).
Proof.
  induction l as [|x l IH]; intros i start Hst; simpl.
  - destruct start; split; repeat constructor; try discriminate. intros _ g [].
  - destruct start as [st|]; destruct x.
    + split; [|discriminate]. apply IH. intros st' E. injection E as <-. specialize (Hst st eq_refl). lia.
    + split; [|discriminate]. destruct (IH (S i) None) as [H1 H2]; [discriminate|]. constructor; [exact H1|].
      apply Forall_forall. intros g Hg. exists (i + 1). split; [reflexivity|]. specialize (H2 eq_refl g Hg). lia.
    + destruct (IH (S i) (Some i)) as [H1 _]; [intros st E; injection E as <-; lia|]. split; [exact H1|].
      intros _ [s e] Hg. simpl. apply (proj2 (gif_spec l (S i))) in Hg as [(-> & _)|(b & H & _)]; lia.
    + destruct (IH (S i) None) as [H1 H2]; [discriminate|]. split; [exact H1|]. intros _ g Hg. specialize (H2 eq_refl g Hg). lia.
Qed.
Theorem group_indices_sorted l : StronglySorted before_group (group_indices l).
Proof. apply gif_sorted. discriminate. Qed.
End Groups.

(** ** ranges: maximal ranges of elements linked by [c] *)
Section Ranges.
Variable c : nat -> bool.     (* [c i]: element i+1 follows element i *)
Fixpoint ranges (a n : nat) : list (nat * nat) :=
  match n with
  | 0 => []
  | S n' => match ranges (S a) n' with
            | (x, y) :: rs => if c a then (a, y) :: rs else (a, S a) :: (x, y) :: rs
            | [] => [(a, S a)]
            end
  end.
Definition maxrange (a m x y : nat) : Prop :=
  a <= x < y /\ y <= m /\ (forall i, x <= i < y - 1 -> c i = true) /\ (x = a \/ c (x - 1) = false) /\ (y = m \/ c (y - 1) = false).

Lemma ranges_hd n : forall a, n <> 0 -> exists y rs, ranges a n = (a, y) :: rs.
Proof.
  destruct n as [|n]; intros a H; [congruence|]. simpl. destruct (ranges (S a) n) as [|[x y] rs]; [eauto|]. destruct (c a); eauto.
Qed.
Lemma ranges_spec n : forall a x y, In (x, y) (ranges a n) <-> maxrange a (a + n) x y.
Proof.
  induction n as [|n IH]; intros a x y; simpl.
  - split; [intros []|]. unfold maxrange. lia.
  - destruct (Nat.eq_dec n 0) as [->|Hn].
    + simpl. split.
      * intros [E|[]]. injection E as <- <-. unfold maxrange. repeat split; try lia; try (intros; lia).
      * intros (H1 & H2 & _). left. f_equal; lia.
    + destruct (ranges_hd n (S a) Hn) as (y0 & rs & E). specialize (IH (S a)). rewrite E in *.
      pose proof (proj1 (IH (S a) y0) (or_introl eq_refl)) as M0.
      assert (Later : forall x y, S a < x -> maxrange a (a + S n) x y <-> maxrange (S a) (S a + n) x y).
      { intros x1 y1 Hx. unfold maxrange. replace (a + S n) with (S a + n) by lia. split; intros (G1 & G2 & G3 & G4 & G5); (split; [lia|]); (split; [lia|]); (split; [exact G3|]); (split; [|exact G5]).
        - destruct G4 as [G4|G4]; [lia|auto].
        - destruct G4 as [G4|G4]; [lia|auto]. }
      (* in the tail nothing begins at S a *)
      assert (Tail : forall x1 y1, In (x1, y1) rs -> S a < x1).
      { intros x1 y1 Hin. clear - E Hin Hn. destruct n as [|n]; [congruence|]. simpl in E. 
        assert (G : forall n a x y, In (x, y) (ranges a n) -> a <= x).
        { clear. induction n as [|n IH]; intros a x y; simpl; [intros []|]. specialize (IH (S a)).
          destruct (ranges (S a) n) as [|[p q] r]; [intros [E|[]]; injection E; lia|]. destruct (c a).
          - intros [E|H]; [injection E; lia|]. specialize (IH x y (or_intror H)). lia.
          - intros [E|H]; [injection E; lia|]. specialize (IH x y H). lia. }
        specialize (G n (S (S a))). destruct (ranges (S (S a)) n) as [|[p q] r]; [injection E as <- <-; destruct Hin|].
        destruct (c (S a)); injection E as <- <-.
        - specialize (G x1 y1 (or_intror Hin)). lia.
        - specialize (G x1 y1 Hin). lia. }
      destruct (c a) eqn:Ca.
      * split.
        -- intros [Ex|Hin].
           ++ injection Ex as <- <-. destruct M0 as (G1 & G2 & G3 & G4 & G5). unfold maxrange. split; [lia|]. split; [lia|].
              split; [|split; [auto|]]. { intros i Hi. destruct (Nat.eq_dec i a) as [->|]; [exact Ca|]. apply G3. lia. }
              destruct G5 as [G5|G5]; [left; lia|auto].
           ++ apply Later; [eapply Tail; eauto|]. apply IH. right; exact Hin.
        -- intros M. destruct M as (G1 & G2 & G3 & G4 & G5). destruct (Nat.eq_dec x a) as [->|Hx].
           ++ left. f_equal. destruct M0 as (M1 & M2 & M3 & M4 & M5).
              assert (y <> S a) by (intros ->; destruct G5 as [G5|G5]; [lia|replace (S a - 1) with a in G5 by lia; congruence]).
              destruct (Nat.lt_total y y0) as [L|[L|L]]; [|symmetry; exact L|].
              ** exfalso. destruct G5 as [G5|G5]; [lia|]. rewrite M3 in G5 by lia. discriminate.
              ** exfalso. destruct M5 as [M5|M5]; [lia|]. rewrite G3 in M5 by lia. discriminate.
           ++ right. assert (x <> S a) by (intros ->; destruct G4 as [G4|G4]; [lia|replace (S a - 1) with a in G4 by lia; congruence]).
              assert (I : In (x, y) ((S a, y0) :: rs)) by (apply IH, Later; [lia|]; split; [lia|]; auto).
              destruct I as [I|I]; [injection I; lia|exact I].
      * split.
        -- intros [Ex|Hin].
           ++ injection Ex as <- <-. unfold maxrange. split; [lia|]. split; [lia|]. split; [intros; lia|]. split; [auto|]. right.
              replace (S a - 1) with a by lia. exact Ca.
           ++ apply IH in Hin as (G1 & G2 & G3 & G4 & G5). unfold maxrange. split; [lia|]. split; [lia|]. split; [exact G3|].
              split; [|destruct G5; [left; lia|auto]]. right. destruct G4 as [->|G4]; [replace (S a - 1) with a by lia; exact Ca|exact G4].
        -- intros (G1 & G2 & G3 & G4 & G5). destruct (Nat.eq_dec x a) as [->|Hx].
           ++ left. f_equal. destruct (Nat.eq_dec y (S a)); [auto|]. rewrite G3 in Ca by lia. discriminate.
           ++ right. apply IH. unfold maxrange. split; [lia|]. split; [lia|]. split; [exact G3|]. split; [|destruct G5; [left; lia|auto]].
              destruct G4 as [G4|G4]; [lia|]. destruct (Nat.eq_dec x (S a)); auto.
Qed.
(** the ranges tile the whole *)
Lemma ranges_tile n : forall a, concat (map (fun r => seq (fst r) (snd r - fst r)) (ranges a n)) = seq a n.
Proof.
  induction n as [|n IH]; intros a; [reflexivity|]. simpl ranges. specialize (IH (S a)).
  destruct (Nat.eq_dec n 0) as [->|Hn]; [cbn [ranges map concat fst snd]; replace (S a - a) with 1 by lia; reflexivity|].
  destruct (ranges_hd n (S a) Hn) as (y0 & rs & E). rewrite E in *.
  assert (Hy : S a < y0).
  { assert (M : maxrange (S a) (S a + n) (S a) y0) by (apply ranges_spec; rewrite E; left; reflexivity). unfold maxrange in M. lia. }
  cbn [map concat fst snd] in IH.
  destruct (c a); cbn [map concat fst snd].
  - replace (y0 - a) with (S (y0 - S a)) by lia. cbn [seq app]. rewrite IH. reflexivity.
  - replace (S a - a) with 1 by lia. cbn [seq app]. rewrite IH. reflexivity.
Qed.
Lemma ranges_sorted n : forall a, StronglySorted (fun p q => snd p <= fst q) (ranges a n).
Proof.
  induction n as [|n IH]; intros a; simpl; [constructor|]. specialize (IH (S a)). 
  assert (Lo : forall r, In r (ranges (S a) n) -> S a <= fst r) by (intros [x y] H; apply ranges_spec in H; unfold maxrange in H; simpl; lia).
  destruct (ranges (S a) n) as [|[x y] rs]; [repeat constructor|]. destruct (c a).
  - apply StronglySorted_inv in IH as [I1 I2]. constructor; assumption.
  - constructor; [exact IH|]. apply Forall_forall. intros r Hr. simpl. apply Lo, Hr.
Qed.
End Ranges.
