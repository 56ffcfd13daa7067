(** [tags_from_path] against the documented patterns (C64-C66). *)
From Coq Require Import QArith Qcanon.
From Verif Require Import Base BaseLemmas GlobModel SpecInv GlobProofs PathModel SpecPath.
Open Scope nat_scope.

Lemma teqb_spec a b : Bool.reflect (a = b) (teqb a b).
Proof. unfold teqb. destruct (list_eq_dec ascii_dec a b); constructor; assumption. Qed.
Lemma is_spec c d : Bool.reflect (c = d) (is c d).
Proof. apply Ascii.eqb_spec. Qed.

Lemma word_spec c : is_word c = true <-> word c.
Proof.
  unfold is_word, word, between, ascii_leb, is. rewrite !orb_true_iff, !andb_true_iff, !N.leb_le.
  assert (E : forall x y, (N_of_ascii x <= N_of_ascii y)%N <-> nat_of_ascii x <= nat_of_ascii y) by (intros; unfold nat_of_ascii; lia).
  rewrite !E. assert (U : Ascii.eqb c "_" = true <-> nat_of_ascii c = 95).
  { destruct (Ascii.eqb_spec c "_") as [->|D]; [split; reflexivity|]. split; [discriminate|]. intros H. exfalso. apply D.
    rewrite <- (ascii_nat_embedding c), H. reflexivity. }
  rewrite U. change (nat_of_ascii "0") with 48. change (nat_of_ascii "9") with 57. change (nat_of_ascii "A") with 65. change (nat_of_ascii "Z") with 90.
  change (nat_of_ascii "a") with 97. change (nat_of_ascii "z") with 122. tauto.
Qed.
Lemma word_not c d : word c -> ~ word d -> c <> d.
Proof. intros H1 H2 ->. contradiction. Qed.
Ltac notword := let H := fresh in intros H; unfold word in H; cbn in H; lia.

(** ** the text of a pattern reads back *)
Definition stage1 (p : list item) : text := concat (map (fun i => match i with IField _ => boxed m_flag | _ => render_item i end) p).
Definition stage2 (p : list item) : text := concat (map (fun i => match i with
  | IField _ => boxed m_flag | IStar => boxed m_single | IDouble => boxed m_double | _ => render_item i end) p).
Definition tok (i : item) : ptok :=
  match i with
  | ILit c => PChar c
  | IAny => PAny
  | ISet neg body => PSet neg (set_items (length body) body)
  | IStar => PStar
  | IDouble => PDouble
  | IField _ => PField
  end.

Lemma sub_fields_app s r : ~ In c_lbrace s -> forall n, length s <= n -> sub_fields n (s ++ r) = s ++ sub_fields (n - length s) r.
Proof.
  induction s as [|c s IH]; intros Hs n Hn; simpl; [rewrite Nat.sub_0_r; reflexivity|].
  destruct n as [|n]; [simpl in Hn; lia|]. simpl. destruct (is_spec c c_lbrace) as [->|D]; [exfalso; apply Hs; left; reflexivity|].
  rewrite IH; [reflexivity|intros H; apply Hs; right; exact H|simpl in Hn; lia].
Qed.

Lemma after_brace_app s r : ~ In c_rbrace s -> ~ In c_nl s -> after_brace (s ++ c_rbrace :: r) = Some r.
Proof.
  induction s as [|c s IH]; intros H1 H2; simpl; [reflexivity|].
  destruct (is_spec c c_rbrace) as [->|D]; [exfalso; apply H1; left; reflexivity|].
  destruct (is_spec c c_nl) as [->|D']; [exfalso; apply H2; left; reflexivity|].
  apply IH; intros H; [apply H1|apply H2]; right; exact H.
Qed.

Lemma ident_not n c : ident n -> ~ word c -> ~ In c n.
Proof. intros (a & l & -> & F & _) Hc Hin. rewrite Forall_forall in F. exact (Hc (F c Hin)). Qed.

Lemma item_no_brace i p : regular (i :: p) -> match i with IField _ => True | _ => ~ In c_lbrace (render_item i) /\ ~ In c_rbrace (render_item i) end.
Proof.
  intros [H _]. destruct i as [c| |neg body| | |n]; simpl; try exact I; split; intros G.
  - destruct G as [->|[]]. apply H. simpl. tauto.
  - destruct G as [->|[]]. apply H. simpl. tauto.
  - destruct G as [G|[]]; discriminate.
  - destruct G as [G|[]]; discriminate.
  - destruct G as [G|G]; [discriminate|]. apply in_app_or in G as [G|G]; [destruct neg; [destruct G as [G|[]]; discriminate|destruct G]|].
    apply in_app_or in G as [G|[G|[]]]; [|discriminate]. apply (proj2 (proj2 H)) in G. apply G. simpl. tauto.
  - destruct G as [G|G]; [discriminate|]. apply in_app_or in G as [G|G]; [destruct neg; [destruct G as [G|[]]; discriminate|destruct G]|].
    apply in_app_or in G as [G|[G|[]]]; [|discriminate]. apply (proj2 (proj2 H)) in G. apply G. simpl. tauto.
  - destruct G as [G|[]]; discriminate.
  - destruct G as [G|[]]; discriminate.
  - destruct G as [G|[G|[]]]; discriminate.
  - destruct G as [G|[G|[]]]; discriminate.
Qed.

Lemma sub_fields_spec p : regular p -> forall n, length (render p) <= n -> sub_fields n (render p) = stage1 p.
Proof.
  induction p as [|i p IH]; intros R n Hn.
  - destruct n; reflexivity.
  - pose proof (item_no_brace i p R) as B. destruct R as [R0 R]. specialize (IH R).
    unfold render, stage1 in *. cbn [map concat] in *. rewrite app_length in Hn.
    assert (Plain : ~ In c_lbrace (render_item i) -> sub_fields n (render_item i ++ concat (map render_item p)) =
      render_item i ++ concat (map (fun i => match i with IField _ => boxed m_flag | _ => render_item i end) p)).
    { intros G. rewrite sub_fields_app by (try exact G; lia). rewrite IH by lia. reflexivity. }
    destruct i as [c| |neg body| | |nm]; try (apply Plain, B).
    cbn [render_item app]. rewrite <- app_assoc. cbn [app]. destruct n as [|n]; [simpl in Hn; lia|]. cbn [sub_fields].
    change (is "{" c_lbrace) with true. cbv iota. change ("}"%char) with c_rbrace.
    rewrite after_brace_app by (apply (ident_not nm); [exact R0|notword]).
    f_equal. apply IH. cbn [render_item length] in Hn. rewrite app_length in Hn. lia.
Qed.

Lemma sub_stars_app s r : ~ In c_star s -> sub_stars (s ++ r) = s ++ sub_stars r.
Proof.
  induction s as [|c s IH]; intros Hs; [reflexivity|]. simpl. destruct (is_spec c c_star) as [->|D]; [exfalso; apply Hs; left; reflexivity|].
  rewrite IH; [reflexivity|]. intros H. apply Hs. right. exact H.
Qed.

Lemma sub_stars_spec p : regular p -> sub_stars (stage1 p) = stage2 p.
Proof.
  induction p as [|i p IH]; intros R; [reflexivity|]. pose proof R as [R0 R']. specialize (IH R').
  unfold stage1, stage2 in *. cbn [map concat].
  destruct i as [c| |neg body| | |nm].
  - rewrite sub_stars_app; [rewrite IH; reflexivity|]. intros [->|[]]. apply R0. simpl. tauto.
  - rewrite sub_stars_app; [rewrite IH; reflexivity|]. intros [H|[]]. discriminate.
  - rewrite sub_stars_app; [rewrite IH; reflexivity|]. simpl. intros [H|H]; [discriminate|]. apply in_app_or in H as [H|H]; [destruct neg; [destruct H as [H|[]]; discriminate|destruct H]|].
    apply in_app_or in H as [H|[H|[]]]; [|discriminate]. apply (proj2 R0) in H. apply H. simpl. tauto.
  - cbn [render_item app sub_stars]. change (is "*" c_star) with true. cbv iota. rewrite <- IH.
    set (r := concat (map (fun i => match i with IField _ => boxed m_flag | _ => render_item i end) p)).
    assert (Hr : match r with d :: _ => is d c_star = false | [] => True end).
    { unfold r. destruct p as [|j p]; [exact I|]. cbn [map concat]. destruct j as [c| |neg body| | |nm]; try reflexivity; try (destruct R0).
      destruct R' as [R1 _]. simpl. destruct (is_spec c c_star) as [->|D]; [|reflexivity]. exfalso. apply R1. simpl. tauto. }
    destruct r as [|d r']; [reflexivity|]. rewrite Hr. reflexivity.
  - cbn [render_item app sub_stars]. change (is "*" c_star) with true. cbv iota. f_equal. exact IH.
  - rewrite sub_stars_app; [rewrite IH; reflexivity|]. vm_compute. intuition discriminate.
Qed.

Lemma parse_set_boxed m r : m <> [] -> ~ In c_close m -> (forall c l, m = c :: l -> c <> c_bang) -> parse_set (m ++ c_close :: r) = Some (false, m, r).
Proof.
  intros H1 H2 H3. apply parse_set_spec. split; [reflexivity|]. destruct m as [|c m]; [congruence|]. exists c, m. split; [reflexivity|].
  split; [intros H; apply H2; right; exact H|]. intros _. eapply H3. reflexivity.
Qed.

Lemma is_suffix_in m l : is_suffix m l = true -> forall c, In c m -> In c l.
Proof.
  induction l as [|x l IH]; simpl; rewrite orb_true_iff; intros [H|H] c Hc.
  - destruct (teqb_spec m []); [subst; destruct Hc|discriminate].
  - discriminate.
  - destruct (teqb_spec m (x :: l)); [subst; exact Hc|discriminate].
  - right. eapply IH; eassumption.
Qed.

Lemma set_tok_plain neg body : (neg = false -> ~ In body reserved) -> (forall c, In c body -> ~ In c ["!"; "*"; "["; "]"; "{"; "}"]%char) ->
  set_tok neg body = Some (PSet neg (set_items (length body) body)).
Proof.
  intros Hr H. unfold set_tok.
  assert (D : forall m, In m reserved -> negb neg && teqb body m = false).
  { intros m Hm. destruct neg; [reflexivity|]. destruct (teqb_spec body m) as [->|G]; [|reflexivity]. exfalso. exact (Hr eq_refl Hm). }
  rewrite (D m_flag), (D m_single), (D m_double) by (vm_compute; auto).
  destruct (existsb _ _) eqn:E; [|reflexivity]. exfalso. apply existsb_exists in E as (m & _ & E).
  apply (H c_open); [eapply is_suffix_in; [exact E|left; reflexivity]|]. simpl. tauto.
Qed.

Lemma translate_spec p : regular p -> forall n, length (stage2 p) <= n -> translate n (stage2 p) = Some (map tok p).
Proof.
  induction p as [|i p IH]; intros R n Hn.
  - destruct n; reflexivity.
  - destruct R as [R0 R]. specialize (IH R). unfold stage2 in *. cbn [map concat] in *. rewrite app_length in Hn.
    set (r := concat _) in *.
    assert (Box : forall m t, m <> [] -> ~ In c_close m -> (forall c l, m = c :: l -> c <> c_bang) -> set_tok false m = Some t -> length (boxed m) + length r <= n ->
      translate n (boxed m ++ r) = Some (t :: map tok p)).
    { intros m t H1 H2 H3 Ht Hl. unfold boxed in *. cbn [app length] in *. rewrite app_length in Hl. simpl in Hl.
      destruct n as [|n]; [lia|]. cbn [translate]. change (is c_open c_quest) with false. change (is c_open c_open) with true. cbv iota zeta.
      rewrite <- app_assoc. cbn [app]. rewrite parse_set_boxed by assumption. rewrite Ht, IH by lia. reflexivity. }
    destruct i as [c| |neg body| | |nm].
    + cbn [render_item app]. cbn [render_item length] in Hn. destruct n as [|n]; [lia|]. cbn [translate]. cbv zeta.
      destruct (is_spec c c_quest) as [->|D1]; [exfalso; apply R0; simpl; tauto|]. destruct (is_spec c c_open) as [->|D2]; [exfalso; apply R0; simpl; tauto|].
      rewrite IH by lia. reflexivity.
    + cbn [render_item app]. cbn [render_item length] in Hn. destruct n as [|n]; [lia|]. cbn [translate]. cbv zeta. change (is "?" c_quest) with true. cbv iota.
      rewrite IH by lia. reflexivity.
    + destruct R0 as (B1 & B3 & B2). cbn [render_item app] in *. cbn [length] in Hn. rewrite !app_length in Hn. destruct n as [|n]; [lia|]. cbn [translate]. cbv zeta.
      change (is "[" c_quest) with false. change (is "[" c_open) with true. cbv iota.
      assert (E : parse_set (((if neg then ["!"%char] else []) ++ body ++ ["]"%char]) ++ r) = Some (neg, body, r)).
      { apply parse_set_spec. split; [rewrite <- !app_assoc; reflexivity|]. destruct body as [|x b]; [congruence|]. exists x, b. split; [reflexivity|]. split.
        - intros G. apply (B2 "]"%char); [right; exact G|simpl; tauto].
        - intros _ ->. apply (B2 "!"%char); [left; reflexivity|simpl; tauto]. }
      rewrite E, set_tok_plain by assumption. rewrite IH by lia. reflexivity.
    + apply Box; try exact Hn; try reflexivity; try discriminate; try (vm_compute; intuition discriminate). vm_compute. intros c l [= <- _]. discriminate.
    + apply Box; try exact Hn; try reflexivity; try discriminate; try (vm_compute; intuition discriminate). vm_compute. intros c l [= <- _]. discriminate.
    + apply Box; try exact Hn; try reflexivity; try discriminate; try (vm_compute; intuition discriminate). vm_compute. intros c l [= <- _]. discriminate.
Qed.

Lemma prepare_spec p : regular p -> normpath (render p) = render p -> prepare_pattern (render p) = Some (map tok p).
Proof.
  intros R N. unfold prepare_pattern. rewrite N. cbv zeta. rewrite sub_fields_spec, sub_stars_spec by (try exact R; lia). apply translate_spec; [exact R|lia].
Qed.

(** ** matching *)
Lemma lazy_spec ok more : forall s acc,
  match lazy ok more acc s with
  | Some (v, vs) => exists s1 s2, s = s1 ++ s2 /\ v = acc ++ s1 /\ (forall c, In c s1 -> ok c = true) /\ more s2 = Some vs /\
      forall t1 t2, s = t1 ++ t2 -> (forall c, In c t1 -> ok c = true) -> length t1 < length s1 -> more t2 = None
  | None => forall s1 s2, s = s1 ++ s2 -> (forall c, In c s1 -> ok c = true) -> more s2 = None
  end.
Proof.
  induction s as [|c s IH]; intros acc; simpl.
  - destruct (more []) as [vs|] eqn:E.
    + exists [], []. split; [reflexivity|]. split; [rewrite app_nil_r; reflexivity|]. split; [intros c []|]. split; [exact E|]. intros t1 t2 _ _ H. simpl in H. lia.
    + intros s1 s2 H _. symmetry in H. apply app_eq_nil in H as [-> ->]. exact E.
  - destruct (more (c :: s)) as [vs|] eqn:E.
    + exists [], (c :: s). split; [reflexivity|]. split; [rewrite app_nil_r; reflexivity|]. split; [intros d []|]. split; [exact E|]. intros t1 t2 _ _ H. simpl in H. lia.
    + destruct (ok c) eqn:Ec.
      * specialize (IH (acc ++ [c])). destruct (lazy ok more (acc ++ [c]) s) as [[v vs]|].
        -- destruct IH as (s1 & s2 & -> & -> & H1 & H2 & H3). exists (c :: s1), s2. split; [reflexivity|]. split; [rewrite <- app_assoc; reflexivity|].
           split; [intros d [<-|Hd]; [exact Ec|apply H1, Hd]|]. split; [exact H2|].
           intros [|d t1] t2 Ht Hok Hl; simpl in Ht; [rewrite <- Ht; exact E|]. injection Ht as <- Ht. simpl in Hl. apply (H3 t1 t2 Ht); [intros e He; apply Hok; right; exact He|lia].
        -- intros [|d s1] s2 Hs Hok; simpl in Hs; [rewrite <- Hs; exact E|]. injection Hs as <- Hs. apply (IH s1 s2 Hs). intros e He. apply Hok. right. exact He.
      * intros [|d s1] s2 Hs Hok; simpl in Hs; [rewrite <- Hs; exact E|]. injection Hs as <- Hs. rewrite (Hok c) in Ec by (left; reflexivity). discriminate.
Qed.

Lemma reads_cons i p s pieces : reads (i :: p) s pieces <-> exists a r ps, pieces = a :: ps /\ s = a ++ r /\ fits i a /\ reads p r ps.
Proof.
  unfold reads. split.
  - intros [F C]. inversion F as [|? a ? ps H1 H2]; subst. exists a, (concat ps), ps. auto.
  - intros (a & r & ps & -> & -> & H & F & <-). split; [constructor; assumption|reflexivity].
Qed.

Definition matches (p : list item) (s : text) (r : option (list text)) : Prop :=
  match r with
  | Some vs => exists pieces, reads p s pieces /\ vs = map snd (values_of p pieces) /\
      forall other, reads p s other -> other = pieces \/ shorter pieces other
  | None => forall pieces, ~ reads p s pieces
  end.

(** an item that stands for exactly one character *)
Lemma match_one i p s (f : ascii -> bool) : (forall n, i <> IField n) -> (forall a, fits i a <-> exists c, a = [c] /\ f c = true) ->
  (forall s, matches p s (pmatch (map tok p) s)) ->
  matches (i :: p) s (match s with c :: s' => if f c then pmatch (map tok p) s' else None | [] => None end).
Proof.
  intros Hi Hf IH. assert (Hv : forall a ps, values_of (i :: p) (a :: ps) = values_of p ps) by (intros; destruct i; try reflexivity; exfalso; eapply Hi; reflexivity).
  destruct s as [|c s].
  - intros pieces H. apply reads_cons in H as (a & r & ps & _ & E & Ha & _). apply Hf in Ha as (c & -> & _). discriminate.
  - destruct (f c) eqn:E.
    + specialize (IH s). destruct (pmatch (map tok p) s) as [vs|]; simpl in *.
      * destruct IH as (ps & H1 & -> & H2). exists ([c] :: ps). split; [apply reads_cons; exists [c], s, ps; split; [reflexivity|]; split; [reflexivity|]; split; [apply Hf; eauto|exact H1]|].
        split; [rewrite Hv; reflexivity|]. intros other Ho. apply reads_cons in Ho as (a & r & ps' & -> & Es & Ha & Hr). apply Hf in Ha as (d & -> & _).
        injection Es as <- <-. destruct (H2 _ Hr) as [->|Hs]; [left; reflexivity|right; constructor; exact Hs].
      * intros pieces H. apply reads_cons in H as (a & r & ps & _ & Es & Ha & Hr). apply Hf in Ha as (d & -> & _). injection Es as <- <-. exact (IH _ Hr).
    + intros pieces H. apply reads_cons in H as (a & r & ps & _ & Es & Ha & Hr). apply Hf in Ha as (d & -> & Hd). injection Es as <- <-. congruence.
Qed.

(** an item that stands for a run of characters *)
Lemma match_run i p s (ok : ascii -> bool) : (forall n, i <> IField n) -> (forall a, fits i a <-> forall c, In c a -> ok c = true) ->
  (forall s, matches p s (pmatch (map tok p) s)) ->
  matches (i :: p) s (option_map snd (lazy ok (pmatch (map tok p)) [] s)).
Proof.
  intros Hi Hf IH. assert (Hv : forall a ps, values_of (i :: p) (a :: ps) = values_of p ps) by (intros; destruct i; try reflexivity; exfalso; eapply Hi; reflexivity).
  pose proof (lazy_spec ok (pmatch (map tok p)) s []) as L. destruct (lazy ok (pmatch (map tok p)) [] s) as [[v vs]|]; simpl.
  - destruct L as (s1 & s2 & -> & -> & H1 & H2 & H3). pose proof (IH s2) as G. rewrite H2 in G. destruct G as (ps & G1 & -> & G2).
    exists (s1 :: ps). split; [apply reads_cons; exists s1, s2, ps; split; [reflexivity|]; split; [reflexivity|]; split; [apply (proj2 (Hf s1)), H1|exact G1]|].
    split; [rewrite Hv; reflexivity|]. intros other Ho. apply reads_cons in Ho as (a & r & ps' & -> & Es & Ha & Hr). rewrite (Hf a) in Ha.
    destruct (Nat.lt_trichotomy (length a) (length s1)) as [C|[C|C]].
    + pose proof (IH r) as G. rewrite (H3 a r Es Ha C) in G. exfalso. exact (G _ Hr).
    + assert (E1 : s1 = a /\ s2 = r).
      { clear - Es C. revert a C Es. induction s1 as [|x s1 IH]; intros [|y a] C Es; simpl in C; try discriminate; [split; [reflexivity|exact Es]|].
        injection Es as -> Es. destruct (IH a ltac:(lia) Es) as [-> ->]. auto. }
      destruct E1 as [-> ->]. destruct (G2 _ Hr) as [->|G]; [left; reflexivity|right; constructor; exact G].
    + right. constructor. exact C.
  - intros pieces H. apply reads_cons in H as (a & r & ps & _ & Es & Ha & Hr). rewrite (Hf a) in Ha. pose proof (IH r) as G. rewrite (L a r Es Ha) in G. exact (G _ Hr).
Qed.

Lemma match_field n p s : (forall s, matches p s (pmatch (map tok p) s)) -> matches (IField n :: p) s (pmatch (map tok (IField n :: p)) s).
Proof.
  intros IH. cbn [map tok pmatch]. destruct s as [|c s].
  - intros pieces H. apply reads_cons in H as (a & r & ps & _ & Es & [Ha _] & _). symmetry in Es. apply app_eq_nil in Es as [-> _]. congruence.
  - destruct (is_word c) eqn:Ec.
    2: { intros pieces H. apply reads_cons in H as (a & r & ps & _ & Es & [Ha Fa] & _). destruct a as [|d a]; [congruence|]. injection Es as <- _.
         inversion Fa as [|? ? Hd _]; subst. apply word_spec in Hd. congruence. }
    pose proof (lazy_spec is_word (pmatch (map tok p)) s [c]) as L. destruct (lazy is_word (pmatch (map tok p)) [c] s) as [[v vs]|]; simpl.
    + destruct L as (s1 & s2 & -> & -> & H1 & H2 & H3). pose proof (IH s2) as G. rewrite H2 in G. destruct G as (ps & G1 & -> & G2).
      exists ((c :: s1) :: ps). split.
      { apply reads_cons. exists (c :: s1), s2, ps. split; [reflexivity|]. split; [reflexivity|]. split; [|exact G1]. split; [discriminate|].
        rewrite Forall_forall. intros d [<-|Hd]; apply word_spec; [exact Ec|apply H1, Hd]. }
      split; [reflexivity|]. intros other Ho. apply reads_cons in Ho as (a & r & ps' & -> & Es & [Ha Fa] & Hr). destruct a as [|d a]; [congruence|].
      injection Es as <- Es. rewrite Forall_forall in Fa. assert (Fa' : forall e, In e a -> is_word e = true) by (intros e He; apply word_spec, Fa; right; exact He).
      destruct (Nat.lt_trichotomy (length a) (length s1)) as [C|[C|C]].
      * pose proof (IH r) as G. rewrite (H3 a r Es Fa' C) in G. exfalso. exact (G _ Hr).
      * assert (E1 : s1 = a /\ s2 = r).
        { clear - Es C. revert a C Es. induction s1 as [|x s1 IH]; intros [|y a] C Es; simpl in C; try discriminate; [split; [reflexivity|exact Es]|].
          injection Es as -> Es. destruct (IH a ltac:(lia) Es) as [-> ->]. auto. }
        destruct E1 as [-> ->]. destruct (G2 _ Hr) as [->|G]; [left; reflexivity|right; constructor; exact G].
      * right. constructor. simpl. lia.
    + intros pieces H. apply reads_cons in H as (a & r & ps & _ & Es & [Ha Fa] & Hr). destruct a as [|d a]; [congruence|].
      injection Es as <- Es. rewrite Forall_forall in Fa. assert (Fa' : forall e, In e a -> is_word e = true) by (intros e He; apply word_spec, Fa; right; exact He).
      pose proof (IH r) as G. rewrite (L a r Es Fa') in G. exact (G _ Hr).
Qed.

Lemma pmatch_spec p : forall s, matches p s (pmatch (map tok p) s).
Proof.
  induction p as [|i p IH]; intros s.
  - simpl. destruct s as [|c s]; simpl.
    + exists []. split; [split; [constructor|reflexivity]|]. split; [reflexivity|]. intros other [F _]. inversion F. left. reflexivity.
    + intros pieces [F C]. inversion F; subst. discriminate.
  - destruct i as [c| |neg body| | |n].
    + apply (match_one (ILit c) p s (is c)); [discriminate| |exact IH]. intros a. simpl. split.
      * intros ->. exists c. split; [reflexivity|]. apply Ascii.eqb_refl.
      * intros (d & -> & H). destruct (is_spec c d) as [->|]; [reflexivity|discriminate].
    + apply (match_one IAny p s (fun _ => true)); [discriminate| |exact IH]. intros a. simpl. split; [intros (c & ->); eauto|intros (c & -> & _); eauto].
    + apply (match_one (ISet neg body) p s (fun d => xorb neg (in_items d (set_items (length body) body)))); [discriminate| |exact IH].
      intros a. simpl. pose proof (fun c => set_items_spec c body (length body) (le_n _)) as Q.
      split; intros (c & -> & H); exists c; (split; [reflexivity|]); specialize (Q c); destruct (in_items c (set_items (length body) body)), neg; simpl in *; try discriminate; intuition discriminate.
    + apply (match_run IStar p s (fun c => negb (is c c_slash))); [discriminate| |exact IH]. intros a. simpl. split.
      * intros H c Hc. destruct (is_spec c c_slash) as [->|]; [contradiction|reflexivity].
      * intros H Hin. specialize (H _ Hin). discriminate.
    + apply (match_run IDouble p s (fun _ => true)); [discriminate| |exact IH]. intros a. simpl. split; auto.
    + apply match_field, IH.
Qed.

(** ** format strings *)
Lemma field_name_spec nm r : Forall word nm -> forall n, length nm < n -> field_name n (nm ++ c_rbrace :: r) = Ok (nm, r).
Proof.
  induction nm as [|c nm IH]; intros F n Hn; (destruct n as [|n]; [simpl in Hn; lia|]); [reflexivity|].
  inversion F as [|? ? Hc Hl]; subst. cbn [app field_name].
  destruct (is_spec c c_lbrace) as [->|]; [exfalso; revert Hc; notword|]. destruct (is_spec c c_rbrace) as [->|]; [exfalso; revert Hc; notword|].
  destruct (is_spec c "!") as [->|]; [exfalso; revert Hc; notword|]. destruct (is_spec c ":") as [->|]; [exfalso; revert Hc; notword|].
  destruct (is_spec c c_open) as [->|]; [exfalso; revert Hc; notword|]. rewrite IH by (try assumption; simpl in Hn; lia). reflexivity.
Qed.

Lemma fparse_plain s r : ~ In c_lbrace s -> ~ In c_rbrace s -> forall n l, length s <= n -> fparse (n - length s) r = Ok l -> fparse n (s ++ r) = Ok (map FLit s ++ l).
Proof.
  induction s as [|c s IH]; intros H1 H2 n l Hn Hr; simpl; [simpl in Hr; rewrite Nat.sub_0_r in Hr; exact Hr|].
  destruct n as [|n]; [simpl in Hn; lia|]. simpl. destruct (is_spec c c_lbrace) as [->|]; [exfalso; apply H1; left; reflexivity|].
  destruct (is_spec c c_rbrace) as [->|]; [exfalso; apply H2; left; reflexivity|].
  erewrite IH; [reflexivity|intros G; apply H1; right; exact G|intros G; apply H2; right; exact G|simpl in Hn; lia|exact Hr].
Qed.

Lemma fparse_field nm r n l : ident nm -> length nm + 2 <= n -> fparse (n - (length nm + 2)) r = Ok l ->
  (forall m, n - (length nm + 2) <= m -> fparse m r = Ok l) ->
  fparse n ((c_lbrace :: nm ++ [c_rbrace]) ++ r) = Ok (FField nm :: l).
Proof.
  intros I Hn _ Hr. pose proof I as (c & l0 & -> & F & _). destruct n as [|n]; [simpl in Hn; lia|].
  inversion F as [|? ? Hc Hl]; subst. simpl in Hn.
  cbn [app fparse]. change (is c_lbrace c_lbrace) with true. cbv iota.
  destruct (is_spec c c_lbrace) as [->|]; [exfalso; revert Hc; notword|].
  change (c :: (l0 ++ [c_rbrace]) ++ r) with (((c :: l0) ++ [c_rbrace]) ++ r). rewrite <- app_assoc. cbn [app].
  change (c :: l0 ++ c_rbrace :: r) with ((c :: l0) ++ c_rbrace :: r).
  rewrite field_name_spec by (try assumption; rewrite app_length; simpl; lia). cbn [bind fst snd]. rewrite Hr by lia. reflexivity.
Qed.

Lemma fields_of_app a b : fields_of (a ++ b) = fields_of a ++ fields_of b.
Proof. unfold fields_of. apply flat_map_app. Qed.
Lemma fields_of_lit s : fields_of (map FLit s) = [].
Proof. induction s; simpl; auto. Qed.

Lemma pattern_fmt p : regular p -> exists l, (forall n, length (render p) <= n -> fparse n (render p) = Ok l) /\ fields_of l = names_of p.
Proof.
  induction p as [|i p IH]; intros R.
  - exists []. split; [intros []; reflexivity|reflexivity].
  - pose proof (item_no_brace i p R) as B. destruct R as [R0 R]. destruct (IH R) as (l & Hl & Fl). unfold render in *. cbn [map concat].
    assert (Lit : ~ In c_lbrace (render_item i) /\ ~ In c_rbrace (render_item i) -> names_of (i :: p) = names_of p -> exists l,
      (forall n, length (render_item i ++ concat (map render_item p)) <= n -> fparse n (render_item i ++ concat (map render_item p)) = Ok l) /\ fields_of l = names_of (i :: p)).
    { intros [B1 B2] E. exists (map FLit (render_item i) ++ l). split.
      - intros n Hn. rewrite app_length in Hn. apply fparse_plain; try assumption; [lia|]. apply Hl. lia.
      - rewrite fields_of_app, fields_of_lit, E. exact Fl. }
    destruct i as [c| |neg body| | |nm]; try (apply Lit; [exact B|reflexivity]).
    exists (FField nm :: l). split; [|simpl; f_equal; exact Fl]. intros n Hn. rewrite app_length in Hn. cbn [render_item length] in Hn. rewrite app_length in Hn. simpl in Hn.
    cbn [render_item]. apply fparse_field; [exact R0|lia|apply Hl; lia|intros m Hm; apply Hl; lia].
Qed.

Lemma ident_first n : ident n -> exists c l, n = c :: l /\ is_first c = true.
Proof.
  intros (c & l & -> & F & D). exists c, l. split; [reflexivity|]. inversion F as [|? ? Hc _]; subst. unfold is_first.
  apply word_spec in Hc. unfold is_word in Hc. rewrite !orb_true_iff in *. destruct Hc as [[[Hc|Hc]|Hc]|Hc]; auto. exfalso. apply D.
  unfold between in Hc. apply andb_true_iff in Hc as [H1 H2]. unfold ascii_leb in *. apply N.leb_le in H1, H2. unfold nat_of_ascii.
  change (N_of_ascii "0") with 48%N in H1. change (N_of_ascii "9") with 57%N in H2. lia.
Qed.

Lemma get_fields_ok l fs : fmt l = Ok fs -> (forall n, In n (fields_of fs) -> ident n) -> get_fields l = Ok (fields_of fs).
Proof.
  intros H I. unfold get_fields. rewrite H. cbn [bind]. induction (fields_of fs) as [|n ns IH]; [reflexivity|].
  destruct (ident_first n (I n (or_introl eq_refl))) as (c & l0 & -> & Hc). cbn [mapM]. rewrite Hc. cbn [bind]. rewrite IH; [reflexivity|]. intros m Hm. apply I. right. exact Hm.
Qed.

Lemma names_ident p : regular p -> forall n, In n (names_of p) -> ident n.
Proof.
  induction p as [|i p IH]; intros R n Hn; [destruct Hn|]. destruct R as [R0 R]. simpl in Hn. apply in_app_or in Hn as [Hn|Hn]; [|apply IH; assumption].
  destruct i; try destruct Hn as [<-|[]]; try destruct Hn. exact R0.
Qed.

Lemma get_fields_pattern p : regular p -> get_fields (render p) = Ok (names_of p).
Proof.
  intros R. destruct (pattern_fmt p R) as (l & Hl & Fl). rewrite <- Fl. apply get_fields_ok; [apply Hl; lia|]. rewrite Fl. apply names_ident, R.
Qed.

Definition tfit (i : titem) : fitem := match i with TLit c => FLit c | TField n => FField n end.
Definition tnames (t : list titem) : list text := flat_map (fun i => match i with TLit _ => [] | TField n => [n] end) t.
Lemma template_fmt t : tregular t -> forall n, length (trender t) <= n -> fparse n (trender t) = Ok (map tfit t).
Proof.
  induction t as [|i t IH]; intros R n Hn; [destruct n; reflexivity|].
  assert (R' : tregular t) by (intros m Hm; apply R; right; exact Hm). specialize (IH R'). unfold trender in *. cbn [map concat] in *. rewrite app_length in Hn.
  destruct i as [c|nm].
  - cbn [trender_item] in *. destruct (Ascii.eqb_spec c "{") as [->|D1]; [|destruct (Ascii.eqb_spec c "}") as [->|D2]].
    + cbn [orb] in *. simpl in Hn. destruct n as [|n]; [lia|]. simpl. rewrite IH by lia. reflexivity.
    + cbn [orb] in *. simpl in Hn. destruct n as [|n]; [lia|]. simpl. rewrite IH by lia. reflexivity.
    + cbn [orb] in *. simpl in Hn. destruct n as [|n]; [lia|]. cbn [app fparse]. destruct (is_spec c c_lbrace) as [->|]; [exfalso; apply D1; reflexivity|]. destruct (is_spec c c_rbrace) as [->|]; [exfalso; apply D2; reflexivity|].
      rewrite IH by lia. reflexivity.
  - cbn [trender_item] in *. simpl in Hn. rewrite app_length in Hn. simpl in Hn. cbn [map tfit].
    apply fparse_field; [apply R; left; reflexivity|lia|apply IH; lia|intros m Hm; apply IH; lia].
Qed.

Lemma fields_of_tfit t : fields_of (map tfit t) = tnames t.
Proof. induction t as [|[c|n] t IH]; simpl; rewrite ?IH; reflexivity. Qed.
Lemma tnames_In t n : In n (tnames t) <-> In (TField n) t.
Proof.
  unfold tnames. rewrite in_flat_map. split.
  - intros ([c|m] & H1 & H2); [destruct H2|]. destruct H2 as [<-|[]]. exact H1.
  - intros H. exists (TField n). split; [exact H|left; reflexivity].
Qed.

Lemma get_fields_template t : tregular t -> get_fields (trender t) = Ok (tnames t).
Proof.
  intros R. rewrite <- fields_of_tfit. apply get_fields_ok; [apply template_fmt; [exact R|lia]|]. rewrite fields_of_tfit. intros n Hn. apply R, tnames_In, Hn.
Qed.

(** ** filling a template *)
Lemma lookup_spec n l v : lookup n l = Some v <-> last_value n l v.
Proof.
  assert (N : forall l, lookup n l = None <-> forall w, ~ In (n, w) l).
  { clear. induction l as [|[m x] l IH]; simpl; [split; [auto|reflexivity]|]. destruct (lookup n l) as [w|] eqn:E.
    - split; [discriminate|]. intros H. exfalso. assert (Q : forall w, ~ In (n, w) l) by (intros y Hy; apply (H y); right; exact Hy). apply IH in Q. discriminate.
    - destruct (teqb_spec m n) as [->|D].
      + split; [discriminate|]. intros H. exfalso. apply (H x). left. reflexivity.
      + split; [|reflexivity]. intros _ w [G|G]; [injection G; congruence|]. revert G. apply IH. reflexivity. }
  revert v. induction l as [|[m x] l IH]; intros v; simpl.
  - split; [discriminate|]. intros (l1 & l2 & H & _). destruct l1; discriminate.
  - destruct (lookup n l) as [w|] eqn:E.
    + split.
      * intros [= ->]. apply IH in H0 || (destruct (proj1 (IH v) eq_refl) as (l1 & l2 & -> & H); exists ((m, x) :: l1), l2; split; [reflexivity|exact H]).
      * intros (l1 & l2 & H & H'). destruct l1 as [|y l1]; simpl in H; injection H as ? H; subst.
        -- exfalso. apply N in H'. congruence.
        -- assert (Q : last_value n (l1 ++ (n, v) :: l2) v) by (exists l1, l2; auto). apply IH in Q. congruence.
    + destruct (teqb_spec m n) as [->|D].
      * split.
        -- intros [= ->]. exists [], l. split; [reflexivity|]. apply N, E.
        -- intros (l1 & l2 & H & H'). destruct l1 as [|y l1]; simpl in H; injection H as ? H; subst; [congruence|].
           exfalso. apply (proj1 (N _) E v). apply in_or_app. right. left. reflexivity.
      * split; [discriminate|]. intros (l1 & l2 & H & H'). destruct l1 as [|y l1]; simpl in H; injection H as ? H; subst; [congruence|].
        exfalso. apply (proj1 (N _) E v). apply in_or_app. right. left. reflexivity.
Qed.

Lemma lookup_some n l : In n (map fst l) -> exists v, lookup n l = Some v.
Proof.
  induction l as [|[m x] l IH]; simpl; [intros []|]. intros H. destruct (lookup n l) as [w|]; [eauto|]. destruct (teqb_spec m n) as [->|D]; [eauto|].
  destruct H as [H|H]; [congruence|]. destruct (IH H) as (v & Hv). discriminate.
Qed.

Lemma format_spec t d : tregular t -> (forall n, In n (tnames t) -> In n (map fst d)) -> exists s, format (trender t) d = Ok s /\ filled t d s.
Proof.
  intros R Hin. unfold format, fmt. rewrite template_fmt by (try exact R; lia). cbn [bind].
  assert (Q : exists ss, mapM (fun i => match i with FLit c => Ok [c] | FField n => if existsb (fun c => is c c_dot || is c c_open) n then Err OtherException else of_option KeyError (lookup n d) end) (map tfit t) = Ok ss /\
    Forall2 (fun i x => match i with TLit c => x = [c] | TField n => last_value n d x end) t ss).
  { induction t as [|i t IH]; [exists []; split; [reflexivity|constructor]|].
    destruct IH as (ss & E & F); [intros m Hm; apply R; right; exact Hm|intros n Hn; apply Hin; simpl; apply in_or_app; right; exact Hn|].
    destruct i as [c|n].
    - exists ([c] :: ss). cbn [map tfit mapM]. cbn [bind]. rewrite E. split; [reflexivity|constructor; [reflexivity|exact F]].
    - destruct (lookup_some n d) as (v & Hv); [apply Hin; left; reflexivity|]. exists (v :: ss). cbn [map tfit mapM].
      replace (existsb (fun c => is c c_dot || is c c_open) n) with false.
      + rewrite Hv. cbn [of_option bind]. rewrite E. split; [reflexivity|constructor; [apply lookup_spec, Hv|exact F]].
      + symmetry. apply not_true_iff_false. intros G. apply existsb_exists in G as (c & Hc & G). apply orb_true_iff in G as [G|G];
          (destruct (is_spec c c_dot) as [->|] || idtac); (destruct (is_spec c c_open) as [->|] || idtac); try discriminate;
          (eapply ident_not; [apply R; left; reflexivity| |exact Hc]; notword). }
  destruct Q as (ss & E & F). rewrite E. cbn [bind]. exists (concat ss). split; [reflexivity|]. exists ss. auto.
Qed.

Lemma values_names p : forall pieces, length p = length pieces -> map fst (values_of p pieces) = names_of p.
Proof.
  induction p as [|i p IH]; intros [|x pieces] H; try discriminate; [reflexivity|]. unfold values_of, names_of in *. simpl in *.
  rewrite map_app, (IH pieces) by lia. destruct i; reflexivity.
Qed.
Lemma combine_fst_snd {X Y} (l : list (X * Y)) : combine (map fst l) (map snd l) = l.
Proof. induction l as [|[a b] l IH]; simpl; [reflexivity|]. rewrite IH. reflexivity. Qed.

Lemma reads_len p s pieces : reads p s pieces -> length p = length pieces.
Proof. intros [F _]. eapply Forall2_len, F. Qed.

(** ** all together *)
Lemma yields_spec p tpls names : (forall t, In t tpls -> tregular t) -> (forall t n, In t tpls -> In (TField n) t -> In n (names_of p)) ->
  exists l, yield_tags (map tok p) (names_of p) (map trender tpls) names = (l, None) /\ yielded normpath p tpls names l.
Proof.
  intros R Hin. induction names as [|name names (l & IH & Y)]; [exists []; split; [reflexivity|constructor]|].
  cbn [yield_tags]. pose proof (pmatch_spec p (normpath name)) as M. destruct (pmatch (map tok p) (normpath name)) as [vs|].
  - destruct M as (pieces & M1 & -> & M2). rewrite <- (values_names p pieces) by (eapply reads_len, M1). rewrite combine_fst_snd.
    assert (Q : exists tags, mapM (fun tpl => format tpl (values_of p pieces)) (map trender tpls) = Ok tags /\ Forall2 (fun t s => filled t (values_of p pieces) s) tpls tags).
    { clear IH Y l M2. induction tpls as [|t tpls IH]; [exists []; split; [reflexivity|constructor]|].
      destruct IH as (tags & E & F); [intros u Hu; apply R; right; exact Hu|intros u n Hu; apply Hin; right; exact Hu|].
      destruct (format_spec t (values_of p pieces)) as (s & Es & Fs); [apply R; left; reflexivity| |].
      - intros n Hn. rewrite (values_names p pieces) by (eapply reads_len, M1). apply (Hin t n); [left; reflexivity|apply tnames_In, Hn].
      - exists (s :: tags). cbn [map mapM]. rewrite Es. cbn [bind]. rewrite E. split; [reflexivity|constructor; assumption]. }
    destruct Q as (tags & E & F). rewrite E. rewrite (values_names p pieces) by (eapply reads_len, M1). rewrite IH. exists ((name, tags) :: l). split; [reflexivity|]. econstructor; eassumption.
  - rewrite IH. exists l. split; [reflexivity|]. constructor; assumption.
Qed.

Lemma tags_from_path_ok names p tpls : regular p -> normpath (render p) = render p -> (forall t, In t tpls -> tregular t) ->
  (forall t n, In t tpls -> In (TField n) t -> In n (names_of p)) ->
  exists l, tags_from_path names (render p) (map trender tpls) = (l, None) /\ yielded normpath p tpls names l.
Proof.
  intros R N T Hin. unfold tags_from_path. rewrite get_fields_pattern by exact R. cbn [bind].
  assert (Q : exists u, mapM (fun tpl => fs <- get_fields tpl ;; check (forallb (fun f => existsb (teqb f) (names_of p)) fs) ValueError) (map trender tpls) = Ok u).
  { clear - T Hin. induction tpls as [|t tpls IH]; [eexists; reflexivity|]. destruct IH as (u & E); [intros u Hu; apply T; right; exact Hu|intros u n Hu; apply Hin; right; exact Hu|].
    cbn [map mapM]. rewrite get_fields_template by (apply T; left; reflexivity). cbn [bind].
    replace (forallb (fun f => existsb (teqb f) (names_of p)) (tnames t)) with true; [cbn [check bind]; rewrite E; eexists; reflexivity|].
    symmetry. apply forallb_forall. intros n Hn. apply existsb_exists. exists n. split; [apply (Hin t n); [left; reflexivity|apply tnames_In, Hn]|]. destruct (teqb_spec n n); congruence. }
  destruct Q as (u & E). rewrite E. cbn [bind]. rewrite prepare_spec by assumption. cbn [of_option bind]. apply yields_spec; assumption.
Qed.

(** a template with a field the pattern does not have *)
Lemma tags_from_path_unknown names p tpls t n : regular p -> (forall t, In t tpls -> tregular t) -> In t tpls -> In (TField n) t -> ~ In n (names_of p) ->
  tags_from_path names (render p) (map trender tpls) = ([], Some ValueError).
Proof.
  intros R T Ht Hn Hp. unfold tags_from_path. rewrite get_fields_pattern by exact R. cbn [bind].
  assert (Q : mapM (fun tpl => fs <- get_fields tpl ;; check (forallb (fun f => existsb (teqb f) (names_of p)) fs) ValueError) (map trender tpls) = Err ValueError).
  { induction tpls as [|t' tpls IH]; [destruct Ht|]. cbn [map mapM]. rewrite get_fields_template by (apply T; left; reflexivity). cbn [bind].
    destruct (forallb _ (tnames t')) eqn:E; [|reflexivity]. cbn [check bind]. rewrite IH; [reflexivity|intros u Hu; apply T; right; exact Hu|].
    destruct Ht as [->|Ht]; [|exact Ht]. exfalso. rewrite forallb_forall in E. apply tnames_In, E, existsb_exists in Hn as (m & Hm & Em).
    destruct (teqb_spec n m); [subst; contradiction|discriminate]. }
  rewrite Q. reflexivity.
Qed.
