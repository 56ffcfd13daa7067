(** Format strings: which texts are patterns and templates. *)
From Coq Require Import QArith Qcanon.
From Verif Require Import Base BaseLemmas GlobModel SpecInv PathModel SpecPath PathProofs.
Open Scope nat_scope.

Lemma skip_bracket_spec l : let '(a, b) := skip_bracket l in
  l = a ++ b /\ ~ In "]"%char a /\ (b = [] \/ exists b', b = "]"%char :: b').
Proof.
  induction l as [|c l IH]; simpl; [split; [reflexivity|]; split; [auto|left; reflexivity]|].
  destruct (is_spec c c_close) as [->|D]; [split; [reflexivity|]; split; [auto|right; exists l; reflexivity]|].
  destruct (skip_bracket l) as [a b]. destruct IH as (-> & H1 & H2). split; [reflexivity|]. split; [|exact H2].
  intros [E|E]; [exact (D E)|exact (H1 E)].
Qed.
Lemma skip_bracket_app u r : ~ In "]"%char u -> skip_bracket (u ++ "]"%char :: r) = (u, "]"%char :: r).
Proof.
  induction u as [|c u IH]; intros H; simpl; [reflexivity|]. destruct (is_spec c c_close) as [->|D]; [exfalso; apply H; left; reflexivity|].
  rewrite IH; [reflexivity|]. intros G. apply H. right. exact G.
Qed.

Definition ends : list text := [["}"%char]; [":"%char; "}"%char]].

Lemma field_name_sound fuel : forall l n r, field_name fuel l = Ok (n, r) -> field_text n /\ exists e, In e ends /\ l = n ++ e ++ r.
Proof.
  induction fuel as [|fuel IH]; intros l n r H; [discriminate|]. destruct l as [|c l]; [discriminate|]. cbn [field_name] in H.
  destruct (is_spec c c_lbrace) as [->|D1]; [discriminate|].
  destruct (is_spec c c_rbrace) as [->|D2]; [injection H as <- <-; split; [constructor|]; exists ["}"%char]; split; [left; reflexivity|reflexivity]|].
  destruct (is_spec c "!"%char) as [->|D3]; [discriminate|].
  destruct (is_spec c ":"%char) as [->|D4].
  { destruct l as [|d l]; [discriminate|]. destruct (is_spec d c_rbrace) as [->|]; [|discriminate]. injection H as <- <-.
    split; [constructor|]. exists [":"%char; "}"%char]. split; [right; left; reflexivity|reflexivity]. }
  destruct (is_spec c c_open) as [->|D5].
  - pose proof (skip_bracket_spec l) as S. destruct (skip_bracket l) as [a b]. destruct S as (-> & S1 & S2).
    apply bind_ok in H as ([n' r'] & H1 & H). cbn [fst snd] in H. injection H as <- <-. apply IH in H1 as (F & e & He & E).
    assert (Hb : exists b', b = "]"%char :: b').
    { destruct S2 as [-> |S2]; [|exact S2]. destruct n'; [destruct He as [<-|[<-|[]]]; discriminate|discriminate]. }
    destruct Hb as (b' & ->). destruct n' as [|x n']; [destruct He as [<-|[<-|[]]]; discriminate|]. simpl in E. injection E as <- E.
    assert (F' : field_text n') by (inversion F; assumption).
    split; [apply ft_brackets; assumption|]. exists e. split; [exact He|]. cbn [app]. rewrite E, <- !app_assoc. reflexivity.
  - apply bind_ok in H as ([n' r'] & H1 & H). cbn [fst snd] in H. injection H as <- <-. apply IH in H1 as (F & e & He & E).
    split; [constructor; [|exact F]|exists e; split; [exact He|rewrite E; reflexivity]].
    intros [G|[G|[G|[G|[G|[]]]]]]; [apply D1|apply D2|apply D5|apply D3|apply D4]; symmetry; exact G.
Qed.

Lemma field_name_complete n : field_text n -> forall e r, In e ends -> forall fuel, length (n ++ e ++ r) <= fuel -> field_name fuel (n ++ e ++ r) = Ok (n, r).
Proof.
  induction 1 as [|c n Hc F IH|u n Hu F IH]; intros e r He fuel Hf.
  - destruct He as [<-|[<-|[]]]; (destruct fuel as [|fuel]; [simpl in Hf; lia|]); reflexivity.
  - cbn [app length] in Hf. destruct fuel as [|fuel]; [lia|]. cbn [app field_name].
    destruct (is_spec c c_lbrace) as [->|D1]; [exfalso; apply Hc; simpl; tauto|]. destruct (is_spec c c_rbrace) as [->|D2]; [exfalso; apply Hc; simpl; tauto|].
    destruct (is_spec c "!"%char) as [->|D3]; [exfalso; apply Hc; simpl; tauto|]. destruct (is_spec c ":"%char) as [->|D4]; [exfalso; apply Hc; simpl; tauto|].
    destruct (is_spec c c_open) as [->|D5]; [exfalso; apply Hc; simpl; tauto|]. rewrite (IH e r He) by lia. reflexivity.
  - cbn [app length] in Hf. rewrite <- !app_assoc in *. cbn [app] in *. rewrite app_length in Hf. cbn [length] in Hf. destruct fuel as [|[|fuel]]; [lia|lia|].
    remember (S fuel) as k eqn:Hk. cbn [field_name]. change (is "["%char c_lbrace) with false. change (is "["%char c_rbrace) with false.
    change (is "["%char "!"%char) with false. change (is "["%char ":"%char) with false. change (is "["%char c_open) with true. cbv iota.
    rewrite <- app_assoc. cbn [app]. rewrite skip_bracket_app by exact Hu. subst k. cbn [field_name]. change (is "]"%char c_lbrace) with false. change (is "]"%char c_rbrace) with false.
    change (is "]"%char "!"%char) with false. change (is "]"%char ":"%char) with false. change (is "]"%char c_open) with false. cbv iota.
    rewrite (IH e r He) by lia. reflexivity.
Qed.

Lemma field_name_error fuel : forall l x, field_name fuel l = Err x -> x = ValueError.
Proof.
  induction fuel as [|fuel IH]; intros l x H; [injection H; auto|]. destruct l as [|c l]; [injection H; auto|]. cbn [field_name] in H.
  destruct (is c c_lbrace); [injection H; auto|]. destruct (is c c_rbrace); [discriminate|]. destruct (is c "!"%char); [injection H; auto|].
  destruct (is c ":"%char); [destruct l as [|d l]; [injection H; auto|]; destruct (is d c_rbrace); [discriminate|injection H; auto]|].
  destruct (is c c_open); [destruct (skip_bracket l) as [a b]|];
    (match type of H with (bind ?m _ = _) => destruct m as [p|y] eqn:E end; [discriminate|cbn [bind] in H; injection H as <-; eapply IH, E]).
Qed.

Lemma fparse_sound fuel : forall l x, length l <= fuel -> fparse fuel l = Ok x -> exists t, x = map tfit t /\ spelled t l.
Proof.
  induction fuel as [|fuel IH]; intros l x Hl H.
  - destruct l; [|simpl in Hl; lia]. injection H as <-. exists []. split; [reflexivity|constructor].
  - destruct l as [|c l]; [injection H as <-; exists []; split; [reflexivity|constructor]|]. cbn [fparse] in H. simpl in Hl.
    destruct (is_spec c c_lbrace) as [->|D1].
    + destruct l as [|d l]; [discriminate|]. destruct (is_spec d c_lbrace) as [->|D].
      * apply bind_ok in H as (y & Hy & H). injection H as <-. simpl in Hl. apply IH in Hy as (t & -> & S); [|lia].
        exists (TLit "{"%char :: t). split; [reflexivity|]. constructor; [left; reflexivity|exact S].
      * apply bind_ok in H as ([n r] & Hn & H). cbn [fst snd] in H. apply bind_ok in H as (y & Hy & H). injection H as <-.
        apply field_name_sound in Hn as (F & e & He & E). apply IH in Hy as (t & -> & S).
        -- exists (TField n :: t). split; [reflexivity|]. rewrite E. constructor; assumption.
        -- rewrite E in Hl. rewrite !app_length in Hl. lia.
    + destruct (is_spec c c_rbrace) as [->|D2].
      * destruct l as [|d l]; [discriminate|]. destruct (is_spec d c_rbrace) as [->|D]; [|discriminate].
        apply bind_ok in H as (y & Hy & H). injection H as <-. simpl in Hl. apply IH in Hy as (t & -> & S); [|lia].
        exists (TLit "}"%char :: t). split; [reflexivity|]. constructor; [right; left; reflexivity|exact S].
      * apply bind_ok in H as (y & Hy & H). injection H as <-. apply IH in Hy as (t & -> & S); [|lia].
        exists (TLit c :: t). split; [reflexivity|]. constructor; [|exact S]. intros [G|[G|[]]]; [apply D1|apply D2]; symmetry; exact G.
Qed.

Lemma field_text_first n c l : field_text (c :: l) -> n = c :: l -> c <> "{"%char.
Proof. intros F _. inversion F as [|? ? H|]; subst; [intros ->; apply H; left; reflexivity|discriminate]. Qed.

Lemma fparse_complete t l : spelled t l -> forall fuel, length l <= fuel -> fparse fuel l = Ok (map tfit t).
Proof.
  induction 1 as [|c t s Hc S IH|c t s Hc S IH|n t s e F He S IH]; intros fuel Hf.
  - destruct fuel; reflexivity.
  - cbn [length] in Hf. destruct fuel as [|fuel]; [lia|]. cbn [fparse map tfit].
    destruct (is_spec c c_lbrace) as [->|D1]; [exfalso; apply Hc; left; reflexivity|]. destruct (is_spec c c_rbrace) as [->|D2]; [exfalso; apply Hc; right; left; reflexivity|].
    rewrite IH by lia. reflexivity.
  - cbn [length] in Hf. destruct fuel as [|fuel]; [lia|]. cbn [fparse map tfit].
    destruct Hc as [<-|[<-|[]]]; cbv iota.
    + change (is "{"%char c_lbrace) with true. cbv iota. rewrite IH by lia. reflexivity.
    + change (is "}"%char c_lbrace) with false. change (is "}"%char c_rbrace) with true. cbv iota. rewrite IH by lia. reflexivity.
  - cbn [length] in Hf. destruct fuel as [|fuel]; [lia|]. cbn [fparse map tfit]. change (is "{"%char c_lbrace) with true. cbv iota.
    assert (Hd : exists d r, n ++ e ++ s = d :: r /\ d <> "{"%char).
    { destruct n as [|d n]; [destruct He as [<-|[<-|[]]]; eexists; eexists; (split; [reflexivity|discriminate])|]. exists d. eexists. split; [reflexivity|].
      eapply field_text_first; [exact F|reflexivity]. }
    destruct Hd as (d & r & Ed & Hd). pose proof (field_name_complete n F e s He (length (n ++ e ++ s)) (Nat.le_refl _)) as Hn. rewrite Ed in *.
    destruct (is_spec d c_lbrace) as [->|_]; [exfalso; apply Hd; reflexivity|]. rewrite Hn. cbn [bind fst snd]. rewrite IH; [reflexivity|].
    assert (L : length (n ++ e ++ s) <= fuel) by (rewrite Ed; lia). rewrite !app_length in L. lia.
Qed.

Lemma fparse_error fuel : forall l x, fparse fuel l = Err x -> x = ValueError.
Proof.
  induction fuel as [|fuel IH]; intros l x H; [discriminate|]. destruct l as [|c l]; [discriminate|]. cbn [fparse] in H.
  assert (G : forall l (i : fitem), (r <- fparse fuel l ;; Ok (i :: r)) = Err x -> x = ValueError).
  { intros l' i G. destruct (fparse fuel l') eqn:E; [discriminate|]. cbn [bind] in G. injection G as <-. eapply IH, E. }
  destruct (is c c_lbrace).
  - destruct l as [|d l]; [injection H; auto|]. destruct (is d c_lbrace); [eapply G, H|].
    destruct (field_name _ _) as [p|y] eqn:E; [cbn [bind] in H; eapply G, H|cbn [bind] in H; injection H as <-; eapply field_name_error, E].
  - destruct (is c c_rbrace); [|eapply G, H]. destruct l as [|d l]; [injection H; auto|]. destruct (is d c_rbrace); [eapply G, H|injection H; auto].
Qed.

Lemma fmt_iff l x : fmt l = Ok x <-> exists t, x = map tfit t /\ spelled t l.
Proof.
  unfold fmt. split; [apply fparse_sound; lia|]. intros (t & -> & S). apply fparse_complete; [exact S|lia].
Qed.

Lemma first_iff n : (match n with [] => Err ValueError | c :: _ => if is_first c then Ok n else Err ValueError end) = Ok n <-> starts_well n.
Proof.
  unfold starts_well. destruct n as [|c l]; [split; [discriminate|intros (c & l & H & _); discriminate]|].
  assert (E : is_first c = true <-> let k := nat_of_ascii c in k = 95 \/ 65 <= k <= 90 \/ 97 <= k <= 122).
  { unfold is_first, between, ascii_leb, is. cbv zeta. rewrite !orb_true_iff, !andb_true_iff, !N.leb_le. unfold nat_of_ascii.
    change (N_of_ascii "a") with 97%N. change (N_of_ascii "z") with 122%N. change (N_of_ascii "A") with 65%N. change (N_of_ascii "Z") with 90%N.
    assert (U : (c =? "_")%char = true <-> N_of_ascii c = 95%N).
    { split; [intros H; apply Ascii.eqb_eq in H; subst; reflexivity|]. intros H. apply Ascii.eqb_eq.
      rewrite <- (ascii_N_embedding c), H. reflexivity. }
    rewrite U. lia. }
  split.
  - intros H. exists c, l. split; [reflexivity|]. apply E. destruct (is_first c); [reflexivity|discriminate].
  - intros (c' & l' & H & G). injection H as <- <-. apply E in G. rewrite G. reflexivity.
Qed.

Lemma get_fields_iff l fs : get_fields l = Ok fs <-> exists t, spelled t l /\ fs = tnames t /\ forall n, In n fs -> starts_well n.
Proof.
  unfold get_fields. set (f := fun n : text => _). split.
  - intros H. apply bind_ok in H as (x & Hx & H). apply fmt_iff in Hx as (t & -> & S). rewrite fields_of_tfit in H. exists t. split; [exact S|].
    assert (G : forall ns fs, mapM f ns = Ok fs -> fs = ns /\ forall n, In n fs -> starts_well n).
    { clear. induction ns as [|n ns IH]; intros fs H; [injection H as <-; split; [reflexivity|intros n []]|]. cbn [mapM] in H.
      apply bind_ok in H as (m & Hm & H). apply bind_ok in H as (ms & Hms & H). injection H as <-. destruct (IH _ Hms) as [-> IH'].
      assert (m = n) by (unfold f in Hm; destruct n as [|c n]; [discriminate|]; destruct (is_first c); [injection Hm; auto|discriminate]). subst m.
      split; [reflexivity|]. intros k [<-|Hk]; [apply first_iff; exact Hm|apply IH', Hk]. }
    destruct (G _ _ H) as [-> G']. split; [reflexivity|exact G'].
  - intros (t & S & -> & W). rewrite (proj2 (fmt_iff l (map tfit t))) by eauto. cbn [bind]. rewrite fields_of_tfit.
    induction (tnames t) as [|n ns IH]; [reflexivity|]. cbn [mapM]. unfold f at 1. rewrite (proj2 (first_iff n)) by (apply W; left; reflexivity). cbn [bind].
    rewrite IH; [reflexivity|]. intros m Hm. apply W. right. exact Hm.
Qed.

Lemma get_fields_error l x : get_fields l = Err x -> x = ValueError.
Proof.
  unfold get_fields. destruct (fmt l) as [fs|y] eqn:E; cbn [bind].
  - induction (fields_of fs) as [|n ns IH]; [discriminate|]. cbn [mapM]. destruct n as [|c n]; [intros H; injection H; auto|].
    destruct (is_first c); [|intros H; injection H; auto]. cbn [bind]. destruct (mapM _ ns); [discriminate|]. cbn [bind]. intros H. apply IH. exact H.
  - intros H. injection H as <-. exact (fparse_error _ _ _ E).
Qed.

Lemma spelled_unique t t' l : spelled t l -> spelled t' l -> t = t'.
Proof.
  intros H H'. pose proof (fparse_complete _ _ H _ (Nat.le_refl _)) as E. rewrite (fparse_complete _ _ H' _ (Nat.le_refl _)) in E. injection E as E.
  revert t' E H'. clear. intros t' E _. revert t' E. induction t as [|[c|n] t IH]; intros [|[c'|n'] t'] E; try discriminate; [reflexivity| |]; injection E as -> E; f_equal; apply IH, E.
Qed.

(** ** patterns and templates that are refused *)
Definition checks (keys : list text) (tpl : text) : res unit :=
  fs <- get_fields tpl ;; check (forallb (fun f => existsb (teqb f) keys) fs) ValueError.

Lemma checks_iff keys tpl : checks keys tpl = Ok tt <-> exists t, spelled t tpl /\ (forall n, In n (tnames t) -> starts_well n) /\ forall n, In n (tnames t) -> In n keys.
Proof.
  unfold checks. split.
  - intros H. apply bind_ok in H as (fs & Hf & H). apply get_fields_iff in Hf as (t & S & -> & W). exists t. split; [exact S|]. split; [exact W|].
    destruct (forallb _ _) eqn:E; [|discriminate]. rewrite forallb_forall in E. intros n Hn. apply E, existsb_exists in Hn as (m & Hm & Em). destruct (teqb_spec n m); [subst; exact Hm|discriminate].
  - intros (t & S & W & Hin). rewrite (proj2 (get_fields_iff tpl (tnames t))) by eauto. cbn [bind].
    replace (forallb _ _) with true; [reflexivity|]. symmetry. apply forallb_forall. intros n Hn. apply existsb_exists. exists n. split; [apply Hin, Hn|]. destruct (teqb_spec n n); congruence.
Qed.
Lemma checks_error keys tpl x : checks keys tpl = Err x -> x = ValueError.
Proof.
  unfold checks. destruct (get_fields tpl) as [fs|y] eqn:E; cbn [bind]; [destruct (forallb _ _); [discriminate|intros H; injection H; auto]|].
  intros H. injection H as <-. eapply get_fields_error, E.
Qed.
Lemma all_checks_error keys tpls x : mapM (checks keys) tpls = Err x -> x = ValueError.
Proof.
  induction tpls as [|t tpls IH]; [discriminate|]. cbn [mapM]. destruct (checks keys t) eqn:E; [|intros H; injection H as <-; eapply checks_error, E].
  cbn [bind]. destruct (mapM _ tpls); [discriminate|]. cbn [bind]. intros H. injection H as <-. apply IH. reflexivity.
Qed.

Lemma acceptable_iff pattern tpls : acceptable pattern tpls <-> exists keys u, get_fields pattern = Ok keys /\ mapM (checks keys) tpls = Ok u.
Proof.
  split.
  - intros (p & ts & S & W & F & Hin). exists (tnames p). assert (Q : exists u, mapM (checks (tnames p)) tpls = Ok u).
    { apply mapM_ok_exists. intros tpl Ht. apply In_nth_error in Ht as (i & Hi). destruct (Forall2_nth_error_r _ _ _ _ _ F Hi) as (t & Ht & St). apply nth_error_In in Ht.
      exists tt. apply checks_iff. exists t. split; [exact St|]. split; intros n Hn; apply tnames_In in Hn; [apply W|apply tnames_In]; exact (Hin t n Ht Hn). }
    destruct Q as (u & Q). exists u. split; [|exact Q]. apply get_fields_iff. exists p. split; [exact S|]. split; [reflexivity|]. intros n Hn. apply W, tnames_In, Hn.
  - intros (keys & u & H1 & H2). apply get_fields_iff in H1 as (p & S & -> & W).
    assert (Q : exists ts, Forall2 spelled ts tpls /\ forall t n, In t ts -> In (TField n) t -> In (TField n) p).
    { revert u H2. induction tpls as [|tpl tpls IH]; intros u H2; [exists []; split; [constructor|intros t n []]|]. cbn [mapM] in H2.
      apply bind_ok in H2 as ([] & H2 & H3). apply bind_ok in H3 as (u' & H3 & _). destruct (IH _ H3) as (ts & F & Hin).
      apply checks_iff in H2 as (t & St & _ & Hk). exists (t :: ts). split; [constructor; assumption|]. intros t' n [<-|Ht'] Hn; [apply tnames_In, Hk, tnames_In, Hn|eapply Hin; eassumption]. }
    destruct Q as (ts & F & Hin). exists p, ts. split; [exact S|]. split; [intros n Hn; apply W, tnames_In, Hn|]. split; assumption.
Qed.

Lemma format_error tpl d x : (exists t, spelled t tpl) -> format tpl d = Err x -> x <> ValueError.
Proof.
  intros (t & S) H. unfold format in H. rewrite (proj2 (fmt_iff tpl (map tfit t))) in H by eauto. cbn [bind] in H.
  match type of H with (bind (mapM ?g _) _ = _) => set (f := g) in * end. clear S.
  assert (G : forall l, mapM f l = Err x -> x <> ValueError).
  { clear. induction l as [|i l IH]; [discriminate|]. cbn [mapM]. destruct (f i) as [y|y] eqn:E.
    - cbn [bind]. destruct (mapM f l); [discriminate|]. cbn [bind]. intros H. injection H as <-. apply IH. reflexivity.
    - cbn [bind]. intros H. injection H as <-. unfold f in E. destruct i as [c|n]; [discriminate|]. destruct (existsb _ n); [injection E as <-; discriminate|].
      destruct (lookup n d); [discriminate|]. injection E as <-. discriminate. }
  destruct (mapM f (map tfit t)) eqn:E; [discriminate|]. cbn [bind] in H. injection H as <-. eapply G, E.
Qed.

Lemma yield_error p keys tpls names : (forall tpl, In tpl tpls -> exists t, spelled t tpl) -> snd (yield_tags p keys tpls names) <> Some ValueError.
Proof.
  intros S. induction names as [|name names IH]; [discriminate|]. cbn [yield_tags]. destruct (pmatch p (normpath name)) as [vs|]; [|exact IH].
  destruct (mapM _ tpls) as [tags|x] eqn:E; [destruct (yield_tags p keys tpls names); exact IH|]. cbn [snd]. intros H. injection H as ->. clear IH.
  revert E. induction tpls as [|tpl tpls IH]; [discriminate|]. cbn [mapM]. destruct (format tpl _) as [y|y] eqn:Ef.
  - cbn [bind]. destruct (mapM _ tpls); [discriminate|]. cbn [bind]. intros H. apply IH; [intros t Ht; apply S; right; exact Ht|]. congruence.
  - cbn [bind]. intros H. injection H as ->. eapply format_error; [|exact Ef|reflexivity]. apply S. left. reflexivity.
Qed.

Lemma refused_iff names pattern tpls :
  (snd (tags_from_path names pattern tpls) = Some ValueError <-> ~ acceptable pattern tpls) /\
  (~ acceptable pattern tpls -> fst (tags_from_path names pattern tpls) = []).
Proof.
  unfold tags_from_path.
  destruct (get_fields pattern) as [keys|x] eqn:E1; cbn [bind].
  2: { assert (N : ~ acceptable pattern tpls) by (intros (k & u & H & _)%acceptable_iff; congruence). apply get_fields_error in E1. subst x. cbn [fst snd]. tauto. }
  change (mapM _ tpls) with (mapM (checks keys) tpls). destruct (mapM (checks keys) tpls) as [u|x] eqn:E2; cbn [bind].
  2: { assert (N : ~ acceptable pattern tpls) by (intros (k & u & H & G)%acceptable_iff; rewrite E1 in H; injection H as <-; congruence).
       apply all_checks_error in E2. subst x. cbn [fst snd]. tauto. }
  assert (Y : acceptable pattern tpls) by (apply acceptable_iff; eauto). split; [|tauto]. split; [|tauto]. intros H _.
  destruct (prepare_pattern pattern) as [p|]; cbn [of_option bind] in H; [|discriminate]. revert H. apply yield_error.
  destruct Y as (p' & ts & _ & _ & F & _). intros tpl Ht. apply In_nth_error in Ht as (i & Hi). destruct (Forall2_nth_error_r _ _ _ _ _ F Hi) as (t & _ & St). eauto.
Qed.
