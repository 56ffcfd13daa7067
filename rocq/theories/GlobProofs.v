(** [fnmatch] decides [shell_match]. *)
From Verif Require Import Base BaseLemmas Arith TagsModel SyncModel SetModel GlobModel InvModel SpecInv.
Open Scope nat_scope.

Lemma split_close_some l a b : split_close l = Some (a, b) <-> l = a ++ c_close :: b /\ ~ In c_close a.
Proof.
  revert a b. induction l as [|c l IH]; intros a b; simpl.
  - split; [discriminate|]. intros [H _]. destruct a; discriminate.
  - destruct (Ascii.eqb_spec c c_close) as [->|Hc].
    + split.
      * intros H. injection H as <- <-. split; [reflexivity|intros []].
      * intros [H Hn]. destruct a as [|x a]; simpl in H; injection H; intros; subst; [reflexivity|]. exfalso. apply Hn. left. reflexivity.
    + destruct (split_close l) as [[a' b']|] eqn:E.
      * split.
        -- intros H. injection H as <- <-. destruct (proj1 (IH a' b') eq_refl) as [-> Hn]. split; [reflexivity|]. intros [H|H]; [congruence|exact (Hn H)].
        -- intros [H Hn]. destruct a as [|x a]; simpl in H; injection H; intros; subst; [congruence|].
           assert (E' : Some (a', b') = Some (a, b)) by (apply IH; split; [reflexivity|intros Hi; apply Hn; right; exact Hi]). congruence.
      * split; [discriminate|]. intros [H Hn]. destruct a as [|x a]; simpl in H; injection H; intros; subst; [congruence|].
        assert (E' : None = Some (a, b)) by (apply IH; split; [reflexivity|intros Hi; apply Hn; right; exact Hi]). discriminate.
Qed.

Lemma parse_body (l : list ascii) (neg : bool) body rest :
  match l with
  | c :: l2 => if Ascii.eqb c c_close
               then match split_close l2 with Some (a, b) => Some (neg, c :: a, b) | None => None end
               else match split_close l with Some (a, b) => Some (neg, a, b) | None => None end
  | [] => None end = Some (neg, body, rest) <->
  l = body ++ c_close :: rest /\ exists c b, body = c :: b /\ ~ In c_close b.
Proof.
  destruct l as [|c l2]; [split; [discriminate|intros [H _]; destruct body; discriminate]|].
  destruct (Ascii.eqb_spec c c_close) as [->|Hc].
  - destruct (split_close l2) as [[a b]|] eqn:E.
    + apply split_close_some in E as [-> Hn]. split.
      * intros H. injection H as <- <-. split; [reflexivity|]. exists c_close, a. auto.
      * intros [H (x & y & -> & Hy)]. simpl in H. injection H as <- H.
        assert (E' : Some (a, b) = Some (y, rest)) by (rewrite <- (proj2 (split_close_some (a ++ c_close :: b) a b) (conj eq_refl Hn)); apply split_close_some; auto).
        injection E' as <- <-. reflexivity.
    + split; [discriminate|]. intros [H (x & y & -> & Hy)]. simpl in H. injection H as <- H.
      assert (E' : split_close l2 = Some (y, rest)) by (apply split_close_some; auto). congruence.
  - destruct (split_close (c :: l2)) as [[a b]|] eqn:E.
    + pose proof E as E0. apply split_close_some in E as [Eq Hn]. split.
      * intros H. injection H as <- <-. split; [exact Eq|]. destruct a as [|x a]; simpl in Eq; [congruence|]. exists x, a. split; [reflexivity|]. intros Hi; apply Hn; right; exact Hi.
      * intros [H (x & y & -> & Hy)]. simpl in H. injection H as <- H.
        assert (E' : split_close (c :: l2) = Some (c :: y, rest)) by (apply split_close_some; split; [simpl; congruence|intros [?|?]; [congruence|auto]]).
        rewrite E0 in E'. injection E' as <- <-. reflexivity.
    + split; [discriminate|]. intros [H (x & y & -> & Hy)]. simpl in H. injection H as <- H.
      assert (E' : split_close (c :: l2) = Some (c :: y, rest)) by (apply split_close_some; split; [simpl; congruence|intros [?|?]; [congruence|auto]]). congruence.
Qed.

Lemma parse_set_spec p neg body rest : parse_set p = Some (neg, body, rest) <-> class_at p neg body rest.
Proof.
  unfold parse_set, class_at. destruct p as [|c p].
  - simpl. split; [discriminate|]. intros [H (x & y & -> & _)]. destruct neg; discriminate.
  - destruct (Ascii.eqb_spec c c_bang) as [->|Hc].
    + split.
      * intros H. assert (neg = true) as ->. { destruct p as [|d p2]; [discriminate|]. destruct (Ascii.eqb d c_close); [destruct (split_close p2) as [[? ?]|]|destruct (split_close (d :: p2)) as [[? ?]|]]; try discriminate; injection H; congruence. }
        apply parse_body in H as [-> (x & y & -> & Hy)]. split; [reflexivity|]. exists x, y. split; [reflexivity|]. split; [exact Hy|discriminate].
      * intros [H (x & y & -> & Hy & Hb)]. destruct neg; simpl in H; injection H; intros.
        -- apply parse_body. split; [assumption|eauto].
        -- exfalso. apply Hb; auto.
    + split.
      * intros H. assert (neg = false) as ->. { destruct (Ascii.eqb c c_close); [destruct (split_close p) as [[? ?]|]|destruct (split_close (c :: p)) as [[? ?]|]]; try discriminate; injection H; congruence. }
        apply (parse_body (c :: p)) in H as [H (x & y & -> & Hy)]. split; [exact H|]. exists x, y. split; [reflexivity|]. split; [exact Hy|]. simpl in H. injection H; intros; subst. exact Hc.
      * intros [H (x & y & -> & Hy & Hb)]. destruct neg; simpl in H; [exfalso; apply Hc; injection H; auto|]. apply (parse_body (c :: p)). split; [exact H|eauto].
Qed.

Lemma set_items_spec c l : forall n, length l <= n -> (in_items c (set_items n l) = true <-> in_class c l).
Proof.
  assert (One : forall a, (ascii_leb a c && ascii_leb c a = true <-> a = c)).
  { intros a. unfold ascii_leb. rewrite andb_true_iff, !N.leb_le. split; [|intros ->; lia]. intros [H1 H2].
    rewrite <- (ascii_N_embedding a), <- (ascii_N_embedding c). f_equal. lia. }
  intros n. revert l. induction n as [|n IH]; intros l Hn.
  - destruct l; [|simpl in Hn; lia]. simpl. split; [discriminate|]. intros H. inversion H.
  - destruct l as [|a l]; [simpl; split; [discriminate|intros H; inversion H]|].
    assert (Lit : (forall b l', l <> c_dash :: b :: l') -> in_items c ((a, a) :: set_items n l) = true <-> in_class c (a :: l)).
    { intros Hl. cbn [in_items existsb fst snd]. fold (in_items c (set_items n l)). rewrite orb_true_iff, (One a), (IH l) by (simpl in Hn; lia). split.
      - intros [->|H]; [apply ic_char; exact Hl|apply ic_next; assumption].
      - intros H. inversion H; subst; try (exfalso; eapply Hl; reflexivity); auto. }
    destruct l as [|d [|b l']].
    + apply Lit. discriminate.
    + apply Lit. discriminate.
    + cbn [set_items]. destruct (Ascii.eqb_spec d c_dash) as [->|Hd].
      * cbn [in_items existsb fst snd]. fold (in_items c (set_items n l')). rewrite orb_true_iff, (IH l') by (simpl in Hn; lia).
        unfold ascii_leb. rewrite andb_true_iff, !N.leb_le. split.
        -- intros [[H1 H2]|H]; [apply ic_range; assumption|apply ic_range_next; assumption].
        -- intros H. inversion H; subst; auto; exfalso; match goal with H : forall b l', _ <> _ |- _ => eapply H; reflexivity end.
      * apply Lit. intros x y E. injection E; congruence.
Qed.

Lemma class_rest p neg body rest : class_at p neg body rest -> length rest < length p.
Proof. intros [-> (c & b & -> & _)]. destruct neg; simpl; rewrite !app_length; simpl; lia. Qed.

Lemma gmatch_star p s : gmatch (GStar :: p) s = true <-> exists s1 s2, s = s1 ++ s2 /\ gmatch p s2 = true.
Proof.
  assert (E : forall s, gmatch (GStar :: p) s = gmatch p s || match s with [] => false | _ :: s' => gmatch (GStar :: p) s' end) by (intros []; reflexivity).
  induction s as [|c s IH]; rewrite E, orb_true_iff.
  - split.
    + intros [H|H]; [exists [], []; auto|discriminate].
    + intros (s1 & s2 & Hs & H). symmetry in Hs. apply app_eq_nil in Hs as [-> ->]. auto.
  - rewrite IH. split.
    + intros [H|(s1 & s2 & -> & H)]; [exists [], (c :: s); auto|exists (c :: s1), s2; auto].
    + intros ([|x s1] & s2 & Hs & H); simpl in Hs; [left; rewrite Hs; exact H|]. injection Hs as -> ->. right. eauto.
Qed.

Lemma glob_spec n : forall p, length p <= n -> forall s, gmatch (glob_parse n p) s = true <-> glob p s.
Proof.
  induction n as [|n IH]; intros p Hn s.
  - destruct p; [|simpl in Hn; lia]. simpl. destruct s; split; intros H; try discriminate; try inversion H; constructor.
  - destruct p as [|c p]; [simpl; destruct s; split; intros H; try discriminate; try inversion H; constructor|].
    assert (Hp : length p <= n) by (simpl in Hn; lia). cbn [glob_parse].
    destruct (Ascii.eqb_spec c c_star) as [->|H1].
    { rewrite gmatch_star. split.
      - intros (s1 & s2 & -> & H). apply gl_star. apply IH; assumption.
      - intros H. inversion H; subst; try congruence; try (match goal with H : _ <> _ |- _ => destruct (H eq_refl) end). do 2 eexists. split; [reflexivity|]. apply IH; assumption. }
    destruct (Ascii.eqb_spec c c_quest) as [->|H2].
    { cbn [gmatch]. destruct s as [|d s]; [split; [discriminate|intros H; inversion H]|]. rewrite IH by exact Hp. split.
      - apply gl_any.
      - intros H. inversion H; subst; try assumption; match goal with H : _ <> _ |- _ => destruct (H eq_refl) end. }
    destruct (Ascii.eqb_spec c c_open) as [->|H3].
    { destruct (parse_set p) as [[[neg body] rest]|] eqn:E.
      - apply parse_set_spec in E. cbn [gmatch]. destruct s as [|d s]; [split; [discriminate|intros H; inversion H]|].
        rewrite andb_true_iff, IH by (pose proof (class_rest _ _ _ _ E); lia).
        pose proof (set_items_spec d body (length body) (le_n _)) as Hi. split.
        + intros [Hx Hg]. destruct neg; simpl in Hx.
          * eapply gl_not_class; [exact E| |exact Hg]. intros Hc. apply Hi in Hc. rewrite Hc in Hx. discriminate.
          * eapply gl_class; [exact E| |exact Hg]. apply Hi. destruct (in_items _ _); [reflexivity|discriminate].
        + intros H. inversion H as [| | |p' body' rest' c' s' HE Hin Hg|p' body' rest' c' s' HE Hin Hg|p' s' HE Hg|c' p' s' _ _ HE Hg]; subst.
          * apply parse_set_spec in E, HE. rewrite E in HE. injection HE as -> -> ->. split; [|exact Hg]. apply Hi in Hin. rewrite Hin. reflexivity.
          * apply parse_set_spec in E, HE. rewrite E in HE. injection HE as -> -> ->. split; [|exact Hg]. destruct (in_items _ _); [|reflexivity]. exfalso. apply Hin, Hi. reflexivity.
          * exfalso. eapply HE; eauto.
          * destruct (HE eq_refl).
      - assert (Hno : forall neg body rest, ~ class_at p neg body rest) by (intros neg body rest H; apply parse_set_spec in H; congruence).
        cbn [gmatch]. destruct s as [|d s]; [split; [discriminate|intros H; inversion H]|]. rewrite andb_true_iff, IH by exact Hp.
        rewrite Ascii.eqb_eq. split.
        + intros [<- H]. apply gl_open; assumption.
        + intros H. inversion H; subst; auto; exfalso; try (eapply Hno; eauto; fail); match goal with H : _ <> _ |- _ => destruct (H eq_refl) end. }
    cbn [gmatch]. destruct s as [|d s].
    { split; [discriminate|]. intros H. inversion H; subst. destruct (H1 eq_refl). }
    rewrite andb_true_iff, IH by exact Hp. rewrite Ascii.eqb_eq. split.
    + intros [<- H]. apply gl_char; assumption.
    + intros H. inversion H; subst; auto; match goal with H : _ <> _ |- _ => destruct (H eq_refl) end.
Qed.

Theorem fnmatch_spec name pat : fnmatch name pat = true <-> shell_match pat name.
Proof. unfold fnmatch, shell_match. apply glob_spec. lia. Qed.
