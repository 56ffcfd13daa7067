(** Tables of numbers in text files. *)
From Coq Require Import QArith Qcanon Qpower.
From Verif Require Import Base BaseLemmas Arith PathModel DataModel CalModel SpecCal CalProofs InterpProofs OrdLaws SetTextProofs SpecNumText LoadModel SpecLoad.
From Verif Require PropCal.
Open Scope nat_scope. Local Open Scope list_scope.

(** ** trimming *)
Fixpoint skipw (f : ascii -> bool) (l : text) : text := match l with c :: r => if f c then skipw f r else l | [] => [] end.
Definition trim (f : ascii -> bool) (l : text) : text := rev (skipw f (rev (skipw f l))).
Definition all (f : ascii -> bool) (l : text) : Prop := Forall (fun c => f c = true) l.
Lemma lstrip_skipw l : lstrip l = skipw is_space l. Proof. induction l as [|c l IH]; cbn; [|rewrite IH]; reflexivity. Qed.
Lemma skip_eol_skipw l : skip_eol l = skipw is_eol l. Proof. induction l as [|c l IH]; cbn; [|rewrite IH]; reflexivity. Qed.
Lemma strip_trim l : strip l = trim is_space l. Proof. unfold strip, trim. rewrite !lstrip_skipw. reflexivity. Qed.
Lemma strip_eol_trim l : strip_eol l = trim is_eol l. Proof. unfold strip_eol, trim. rewrite !skip_eol_skipw. reflexivity. Qed.
Lemma skipw_app f s l : all f s -> skipw f (s ++ l) = skipw f l.
Proof. induction 1 as [|c s H1 H2 IH]; cbn; [reflexivity|]. rewrite H1. exact IH. Qed.
Lemma skipw_head f l : (forall c r, l = c :: r -> f c = false) -> skipw f l = l.
Proof. destruct l as [|c r]; intros H; [reflexivity|]. cbn. rewrite (H c r eq_refl). reflexivity. Qed.
Lemma skipw_spec f l : exists s, all f s /\ l = s ++ skipw f l /\ forall c r, skipw f l = c :: r -> f c = false.
Proof.
  induction l as [|c l IH]; cbn.
  - exists []. repeat split; [constructor|discriminate].
  - destruct (f c) eqn:E.
    + destruct IH as (s & H1 & H2 & H3). exists (c :: s). split; [constructor; assumption|]. split; [cbn; congruence|exact H3].
    + exists []. split; [constructor|]. split; [reflexivity|]. intros x r Q. injection Q as <- _. exact E.
Qed.
Lemma all_rev f l : all f (rev l) <-> all f l.
Proof. unfold all. split; intros H; [rewrite <- (rev_involutive l)|]; apply Forall_rev; exact H. Qed.
Lemma trim_iff f l m : trim f l = m <->
  exists a b, l = a ++ m ++ b /\ all f a /\ all f b /\ (forall c r, m = c :: r -> f c = false) /\ (forall c r, m = r ++ [c] -> f c = false).
Proof.
  split.
  - intros <-. unfold trim. destruct (skipw_spec f l) as (a & Ha & E & Hh). destruct (skipw_spec f (rev (skipw f l))) as (b & Hb & E' & Hl).
    assert (Q : skipw f l = rev (skipw f (rev (skipw f l))) ++ rev b) by (rewrite <- rev_app_distr, <- E', rev_involutive; reflexivity).
    exists a, (rev b). split; [rewrite <- Q; exact E|]. split; [exact Ha|]. split; [apply all_rev; exact Hb|]. split.
    + intros c r Em. rewrite Em in Q. apply (Hh c (r ++ rev b)). rewrite Q. reflexivity.
    + intros c r Em. apply (Hl c (rev r)). rewrite <- (rev_involutive (skipw f (rev (skipw f l)))), Em. rewrite rev_app_distr. reflexivity.
  - intros (a & b & -> & Ha & Hb & Hh & Hl). unfold trim. rewrite skipw_app by exact Ha. destruct m as [|c m].
    + cbn. assert (Z : skipw f b = []). { clear - Hb. induction Hb as [|c b H1 H2 IH]; cbn; [reflexivity|]. rewrite H1. exact IH. } rewrite Z. reflexivity.
    + rewrite (skipw_head f ((c :: m) ++ b)) by (intros x r Q; injection Q as <- _; eapply Hh; reflexivity).
      rewrite rev_app_distr, skipw_app by (apply all_rev; exact Hb). rewrite skipw_head; [apply rev_involutive|].
      intros x r Q. apply (Hl x (rev r)). rewrite <- (rev_involutive (c :: m)), Q. reflexivity.
Qed.
Lemma eol_iff c : eol c <-> is_eol c = true.
Proof. unfold eol, is_eol. rewrite orb_true_iff, !Nat.eqb_eq. cbn. intuition. Qed.
Lemma not_iff (P : Prop) b : (P <-> b = true) -> (~ P <-> b = false).
Proof. intros H. rewrite H. destruct b; intuition congruence. Qed.
Lemma strip_iff l m : strip l = m <-> trimmed l m.
Proof.
  rewrite strip_trim, trim_iff. unfold trimmed. split; intros (a & b & H1 & H2 & H3 & H4 & H5); exists a, b; (split; [exact H1|]).
  - split; [apply spaces_iff; exact H2|]. split; [apply spaces_iff; exact H3|]. split; intros c r E; apply (not_iff _ _ (white_iff c)); eauto.
  - split; [apply spaces_iff in H2; exact H2|]. split; [apply spaces_iff in H3; exact H3|]. split; intros c r E; apply (not_iff _ _ (white_iff c)); eauto.
Qed.

(** ** the content of a line *)
Lemma is_eq a b : is a b = true <-> a = b. Proof. apply Ascii.eqb_eq. Qed.
Lemma upto_spec c l : exists rest, l = upto c l ++ rest /\ ~ In c (upto c l) /\ (rest = [] \/ exists r, rest = c :: r).
Proof.
  induction l as [|x l (rest & E & N & H)]; cbn.
  - exists []. auto.
  - destruct (is x c) eqn:Q.
    + apply is_eq in Q. subst x. exists (c :: l). split; [reflexivity|]. split; [intros []|right; eauto].
    + exists rest. split; [cbn; congruence|]. split; [|exact H]. intros [->|Hc]; [|exact (N Hc)]. rewrite (proj2 (is_eq c c) eq_refl) in Q. discriminate.
Qed.
Lemma upto_app c a rest : ~ In c a -> (rest = [] \/ exists r, rest = c :: r) -> upto c (a ++ rest) = a.
Proof.
  intros N H. induction a as [|x a IH]; cbn.
  - destruct H as [->|[r ->]]; cbn; [reflexivity|]. rewrite (proj2 (is_eq c c) eq_refl). reflexivity.
  - destruct (is x c) eqn:Q; [apply is_eq in Q; subst; destruct N; left; reflexivity|]. rewrite IH; [reflexivity|]. intros Hc. apply N. right. exact Hc.
Qed.
Lemma eol_not_hash a : all is_eol a -> ~ In c_hash a.
Proof. intros H Hc. unfold all in H. rewrite Forall_forall in H. apply H in Hc. discriminate. Qed.
Lemma content_iff line body : content line body <-> strip_eol (upto c_hash line) = body.
Proof.
  rewrite strip_eol_trim, trim_iff. unfold content. split.
  - intros (a & b & rest & -> & Ha & Hb & Nb & Hr & Hh & Hl).
    assert (Ha' : all is_eol a) by (eapply Forall_impl; [|exact Ha]; intros c; apply eol_iff). assert (Hb' : all is_eol b) by (eapply Forall_impl; [|exact Hb]; intros c; apply eol_iff).
    exists a, b. split; [|split; [exact Ha'|split; [exact Hb'|split; intros c r E; apply (not_iff _ _ (eol_iff c)); eauto]]].
    replace (a ++ body ++ b ++ rest) with ((a ++ body ++ b) ++ rest) by (rewrite <- !app_assoc; reflexivity). apply upto_app; [|exact Hr].
    rewrite !in_app_iff. intros [H|[H|H]]; [exact (eol_not_hash _ Ha' H)|exact (Nb H)|exact (eol_not_hash _ Hb' H)].
  - intros (a & b & E & Ha & Hb & Hh & Hl). destruct (upto_spec c_hash line) as (rest & El & N & Hr). exists a, b, rest. rewrite E in El, N.
    split; [rewrite El, <- !app_assoc; reflexivity|]. split; [eapply Forall_impl; [|exact Ha]; intros c; apply eol_iff|]. split; [eapply Forall_impl; [|exact Hb]; intros c; apply eol_iff|].
    split; [intros H; apply N; rewrite !in_app_iff; auto|]. split; [exact Hr|]. split; intros c r Em; apply (not_iff _ _ (eol_iff c)); eauto.
Qed.

(** ** cells *)
Lemma split_nonempty f l : split_by f l <> [].
Proof. induction l as [|c l IH]; cbn; [discriminate|]. destruct (f c); [discriminate|]. destruct (split_by f l); discriminate. Qed.
Lemma split_word f w : Forall (fun c => f c = false) w -> split_by f w = [w].
Proof. induction 1 as [|c w H1 H2 IH]; cbn; [reflexivity|]. rewrite H1, IH. reflexivity. Qed.
Lemma split_app_word f w rest : Forall (fun c => f c = false) w -> split_by f (w ++ rest) = match split_by f rest with x :: r => (w ++ x) :: r | [] => [] end.
Proof.
  induction 1 as [|c w H1 H2 IH]; cbn.
  - destruct (split_by f rest) eqn:E; [destruct (split_nonempty _ _ E)|reflexivity].
  - rewrite H1, IH. destruct (split_by f rest) eqn:E; [destruct (split_nonempty _ _ E)|reflexivity].
Qed.
Lemma split_sep f w d rest : Forall (fun c => f c = false) w -> f d = true -> split_by f (w ++ d :: rest) = w :: split_by f rest.
Proof. intros H Hd. rewrite split_app_word by exact H. cbn. rewrite Hd, app_nil_r. reflexivity. Qed.
Lemma no_delim d w : ~ In d w <-> Forall (fun c => is c d = false) w.
Proof.
  rewrite Forall_forall. split.
  - intros H c Hc. destruct (is c d) eqn:E; [apply is_eq in E; subst; contradiction|reflexivity].
  - intros H Hc. apply H in Hc. rewrite (proj2 (is_eq d d) eq_refl) in Hc. discriminate.
Qed.
Lemma split_joined d cells : cells <> [] -> Forall (fun c => ~ In d c) cells -> split_by (fun c => is c d) (joined d cells) = cells.
Proof.
  induction cells as [|w cells IH]; [congruence|]. intros _ H. inversion H as [|? ? Hw Hc]; subst. apply no_delim in Hw. destruct cells as [|w' cells].
  - cbn [joined]. apply (split_word (fun c => is c d)). exact Hw.
  - change (joined d (w :: w' :: cells)) with (w ++ d :: joined d (w' :: cells)). rewrite (split_sep (fun c => is c d)); [|exact Hw|apply is_eq; reflexivity]. rewrite IH; [reflexivity|discriminate|exact Hc].
Qed.
Lemma split_spec d l : l = joined d (split_by (fun c => is c d) l) /\ Forall (fun c => ~ In d c) (split_by (fun c => is c d) l).
Proof.
  induction l as [|c l [IH1 IH2]]; [split; [reflexivity|repeat constructor; intros []]|]. cbn [split_by]. destruct (is c d) eqn:E.
  - apply is_eq in E. subst c. split; [|constructor; [intros []|exact IH2]]. destruct (split_by (fun c => is c d) l) as [|w ws] eqn:Es; [destruct (split_nonempty _ _ Es)|]. cbn [joined app]. f_equal. exact IH1.
  - destruct (split_by (fun c => is c d) l) as [|w ws] eqn:Es; [destruct (split_nonempty _ _ Es)|]. inversion IH2 as [|? ? Hw Hws]; subst. split.
    + destruct ws; cbn [joined app] in *; congruence.
    + constructor; [|exact Hws]. intros [->|H]; [|exact (Hw H)]. rewrite (proj2 (is_eq d d) eq_refl) in E. discriminate.
Qed.

Lemma words_spaces s : all is_space s -> filter nonempty (split_by is_space s) = [].
Proof. induction 1 as [|c s H1 H2 IH]; cbn; [reflexivity|]. rewrite H1. exact IH. Qed.
Lemma words_skip s l : all is_space s -> filter nonempty (split_by is_space (s ++ l)) = filter nonempty (split_by is_space l).
Proof. induction 1 as [|c s H1 H2 IH]; cbn; [reflexivity|]. rewrite H1. exact IH. Qed.
Lemma spaced_model body : forall cells, spaced body cells -> filter nonempty (split_by is_space body) = cells.
Proof.
  intros cells H. induction H as [s Hs|s w rest ws Hs Hne Hw Hr _ IH]; [apply words_spaces, spaces_iff, Hs|].
  rewrite words_skip by (apply spaces_iff, Hs). assert (Hw' : Forall (fun c => is_space c = false) w) by (eapply Forall_impl; [|exact Hw]; intros c; apply (not_iff _ _ (white_iff c))).
  destruct rest as [|c rest].
  - rewrite app_nil_r, split_word by exact Hw'. cbn in IH. subst ws. destruct w; [congruence|reflexivity].
  - pose proof (proj1 (white_iff c) (Hr c rest eq_refl)) as Hc. rewrite split_sep by assumption. cbn [filter]. destruct w as [|x w]; [congruence|]. cbn [nonempty]. f_equal. rewrite <- IH. cbn [split_by]. rewrite Hc. reflexivity.
Qed.
Lemma word_span l : exists w rest, l = w ++ rest /\ Forall (fun c => is_space c = false) w /\ forall c r, rest = c :: r -> is_space c = true.
Proof.
  induction l as [|c l (w & rest & -> & Hw & Hr)]; [exists [], []; repeat split; [constructor|discriminate]|]. destruct (is_space c) eqn:E.
  - exists [], (c :: w ++ rest). split; [reflexivity|]. split; [constructor|]. intros x r Q. injection Q as <- _. exact E.
  - exists (c :: w), rest. split; [reflexivity|]. split; [constructor; assumption|exact Hr].
Qed.
Lemma spaced_exists : forall n body, length body <= n -> exists cells, spaced body cells.
Proof.
  induction n as [|n IH]; intros body Hn.
  - destruct body; [exists []; constructor; constructor|cbn in Hn; lia].
  - destruct (skipw_spec is_space body) as (s & Hs & E & Hh). destruct (skipw is_space body) as [|c l] eqn:Ek.
    + exists []. constructor. rewrite E, app_nil_r. apply spaces_iff. exact Hs.
    + destruct (word_span (c :: l)) as (w & rest & Ew & Hw & Hr). destruct w as [|x w].
      * exfalso. cbn in Ew. rewrite <- Ew in Hr. specialize (Hr c l eq_refl). rewrite (Hh c l eq_refl) in Hr. discriminate.
      * destruct (IH rest) as [cells Hc]. { rewrite E, Ew, !app_length in Hn. cbn in Hn. lia. }
        exists ((x :: w) :: cells). rewrite E, Ew. constructor; [apply spaces_iff; exact Hs|discriminate|eapply Forall_impl; [|exact Hw]; intros y; apply (not_iff _ _ (white_iff y))|intros y r Q; apply white_iff, (Hr y r Q)|exact Hc].
Qed.
Lemma spaced_iff body cells : spaced body cells <-> filter nonempty (split_by is_space body) = cells.
Proof. split; [apply spaced_model|]. intros <-. destruct (spaced_exists (length body) body (le_n _)) as [cells H]. rewrite (spaced_model _ _ H). exact H. Qed.

Lemma fields_iff delim line cells : line_cells delim line cells <-> fields delim line = cells.
Proof.
  unfold line_cells, fields. split.
  - intros (body & Hb & H). apply content_iff in Hb. rewrite Hb. destruct delim as [d|]; [|apply spaced_iff; exact H].
    destruct H as [[-> ->]|(Hne & Hc & -> & Hd)]; [reflexivity|]. destruct (joined d cells) eqn:E; [congruence|]. rewrite <- E. apply split_joined; assumption.
  - intros H. eexists. split; [apply content_iff; reflexivity|]. destruct delim as [d|]; [|apply spaced_iff; exact H].
    destruct (strip_eol (upto c_hash line)) as [|c l] eqn:E; [left; auto|right]. destruct (split_spec d (c :: l)) as [H1 H2]. rewrite H in H1, H2. split; [discriminate|]. split; [subst; apply split_nonempty|auto].
Qed.

(** ** numbers *)
Definition dchar (d : Z) : ascii := nth (Z.to_nat d) (list_ascii_of_string "0123456789") " "%char.
Lemma digits_text_map ds : txt (digits_text ds) = map dchar ds.
Proof. unfold txt, digits_text. apply list_ascii_of_string_of_list_ascii. Qed.
Lemma dchar_spec d : (0 <= d <= 9)%Z -> is_digit (dchar d) = true /\ (Z.of_nat (nat_of_ascii (dchar d)) - 48)%Z = d /\
  is_space (dchar d) = false /\ is (dchar d) "-" = false /\ is (dchar d) "+" = false /\ is (dchar d) c_dot = false /\ is (dchar d) "e" = false /\ is (dchar d) "E" = false.
Proof.
  intros H. assert (C : (d = 0 \/ d = 1 \/ d = 2 \/ d = 3 \/ d = 4 \/ d = 5 \/ d = 6 \/ d = 7 \/ d = 8 \/ d = 9)%Z) by lia.
  repeat destruct C as [->|C]; [..|subst d]; repeat split; reflexivity.
Qed.
Lemma digit_dchar c : is_digit c = true -> exists d, (0 <= d <= 9)%Z /\ c = dchar d /\ d = (Z.of_nat (nat_of_ascii c) - 48)%Z.
Proof.
  intros H. exists (Z.of_nat (nat_of_ascii c) - 48)%Z. assert (R : (48 <= Z.of_nat (nat_of_ascii c) <= 57)%Z).
  { unfold is_digit in H. apply andb_prop in H as [H1 H2]. apply Nat.leb_le in H1, H2. lia. }
  split; [lia|]. split; [|reflexivity].
  destruct c as [b0 b1 b2 b3 b4 b5 b6 b7]; destruct b0, b1, b2, b3, b4, b5, b6, b7; try (cbv in H; discriminate H); reflexivity.
Qed.
Definition nodigit (l : text) : Prop := forall c r, l = c :: r -> is_digit c = false.
Lemma digits_app ds rest : are_digits ds -> nodigit rest -> digits (map dchar ds ++ rest) = (ds, rest).
Proof.
  intros H Hr. induction ds as [|d ds IH]; cbn [map app digits].
  - destruct rest as [|c r]; [reflexivity|]. cbn [digits]. rewrite (Hr c r eq_refl). reflexivity.
  - destruct (dchar_spec d (H d (or_introl eq_refl))) as (H1 & H2 & _). rewrite H1, IH, H2; [reflexivity|]. intros x Hx. apply H. right. exact Hx.
Qed.
Lemma digits_spec l : forall ds rest, digits l = (ds, rest) -> l = map dchar ds ++ rest /\ are_digits ds /\ nodigit rest.
Proof.
  induction l as [|c l IH]; cbn [digits]; intros ds rest H.
  - injection H as <- <-. split; [reflexivity|]. split; [intros d []|intros c r Q; discriminate].
  - destruct (is_digit c) eqn:E.
    + destruct (digits l) as [ds' r'] eqn:Ed. injection H as <- <-. destruct (IH _ _ eq_refl) as (-> & H2 & H3). destruct (digit_dchar c E) as (d & Hd & -> & Eq).
      rewrite <- Eq. split; [reflexivity|]. split; [|exact H3]. intros x [<-|Hx]; auto.
    + injection H as <- <-. split; [reflexivity|]. split; [intros d []|]. intros x r Q. injection Q as <- _. exact E.
Qed.
Definition nosign (l : text) : Prop := forall c r, l = c :: r -> is c "-" = false /\ is c "+" = false.
Lemma sign_app neg sg l : signs neg sg -> nosign l -> sign (sg ++ l) = (neg, l).
Proof.
  intros H Hl. destruct neg; cbn in H; [subst; reflexivity|]. destruct H as [->| ->]; [|reflexivity].
  cbn. destruct l as [|c r]; [reflexivity|]. cbn. destruct (Hl c r eq_refl) as [-> ->]. reflexivity.
Qed.
Lemma sign_spec l neg r : sign l = (neg, r) -> exists sg, l = sg ++ r /\ signs neg sg.
Proof.
  destruct l as [|c l]; cbn; [intros H; injection H as <- <-; exists []; cbn; auto|]. destruct (is c "-") eqn:E1; [|destruct (is c "+") eqn:E2]; intros H; injection H as <- <-.
  - apply is_eq in E1. subst. exists (txt "-"). cbn. auto.
  - apply is_eq in E2. subst. exists (txt "+"). cbn. auto.
  - exists []. cbn. auto.
Qed.
Lemma dchar_nosign ds l : are_digits ds -> nosign l -> nosign (map dchar ds ++ l).
Proof.
  intros H Hl. destruct ds as [|d ds]; [exact Hl|]. intros c r Q. injection Q as <- _. destruct (dchar_spec d (H d (or_introl eq_refl))) as (_ & _ & _ & H1 & H2 & _). auto.
Qed.
Definition solid (l : text) : Prop := Forall (fun c => is_space c = false) l.
Lemma dchar_solid ds : are_digits ds -> solid (map dchar ds).
Proof. intros H. apply Forall_forall. intros c Hc. apply in_map_iff in Hc as (d & <- & Hd). apply (dchar_spec d (H d Hd)). Qed.
Lemma sign_solid neg sg : signs neg sg -> solid sg.
Proof. destruct neg; cbn; [intros ->|intros [->| ->]]; repeat constructor. Qed.
Lemma strip_core s1 s2 core : spaces s1 -> spaces s2 -> solid core -> strip (s1 ++ core ++ s2) = core.
Proof.
  intros H1 H2 H. apply strip_iff. exists s1, s2. repeat split; try assumption; intros c r ->; apply (not_iff _ _ (white_iff c)).
  - inversion H; assumption.
  - apply Forall_app in H as [_ H]. inversion H; assumption.
Qed.
Lemma strip_pads t : exists s1 s2, t = s1 ++ strip t ++ s2 /\ spaces s1 /\ spaces s2.
Proof. destruct (proj1 (strip_iff t _) eq_refl) as (s1 & s2 & H1 & H2 & H3 & _). eauto. Qed.

Lemma int_of_iff t n : int_of t = Some n <-> integer t n.
Proof.
  unfold int_of, integer. split.
  - destruct (sign (strip t)) as [neg l] eqn:Es. destruct (digits l) as [ds rest] eqn:Ed. intros H. destruct ds as [|d ds]; [discriminate|]. destruct rest; [|discriminate].
    destruct (strip_pads t) as (s1 & s2 & E & H1 & H2). destruct (sign_spec _ _ _ Es) as (sg & Eg & Hg). destruct (digits_spec _ _ _ Ed) as (El & Hd & _).
    exists s1, s2, neg, sg, (d :: ds). rewrite digits_text_map. injection H as <-. rewrite app_nil_r in El. split; [rewrite E at 1; rewrite Eg, El, <- !app_assoc; reflexivity|]. repeat (split; [assumption|]). split; [discriminate|]. reflexivity.
  - intros (s1 & s2 & neg & sg & ds & -> & H1 & H2 & Hs & Hd & Hne & ->). rewrite digits_text_map, (app_assoc sg), strip_core; [|assumption..|apply Forall_app; split; [eapply sign_solid; eassumption|apply dchar_solid; assumption]].
    rewrite (sign_app neg); [|assumption|rewrite <- (app_nil_r (map dchar ds)); apply dchar_nosign; [assumption|intros c r Q; discriminate]].
    replace (digits (map dchar ds)) with (ds, @nil ascii) by (symmetry; rewrite <- (app_nil_r (map dchar ds)); apply digits_app; [assumption|intros c r Q; discriminate]).
    destruct ds; [congruence|reflexivity].
Qed.

Definition exps (exp : text) (e : Z) : Prop :=
  (exp = [] /\ e = 0%Z) \/
   exists c eneg esg ds, (c = "e"%char \/ c = "E"%char) /\ exp = c :: esg ++ txt (digits_text ds) /\ signs eneg esg /\ are_digits ds /\ ds <> [] /\
     e = if eneg then (- number ds)%Z else number ds.
Lemma exponent_iff l e : exponent l = Some e <-> exps l e.
Proof.
  unfold exps. split.
  - destruct l as [|c l]; cbn [exponent]; [intros H; injection H as <-; left; auto|]. destruct (is c "e" || is c "E")%bool eqn:Ec; [|discriminate].
    destruct (sign l) as [neg r] eqn:Es. destruct (digits r) as [ds rest] eqn:Ed. destruct ds as [|d ds]; [discriminate|]. destruct rest; [|discriminate]. intros H. injection H as <-. right.
    destruct (sign_spec _ _ _ Es) as (sg & -> & Hg). destruct (digits_spec _ _ _ Ed) as (El & Hd & _). rewrite app_nil_r in El. exists c, neg, sg, (d :: ds).
    apply orb_prop in Ec. rewrite !is_eq in Ec. rewrite digits_text_map, El. repeat (split; [assumption || reflexivity|]). split; [discriminate|reflexivity].
  - intros [[-> ->]|(c & neg & sg & ds & Hc & -> & Hs & Hd & Hne & ->)]; [reflexivity|]. cbn [exponent]. replace (is c "e" || is c "E")%bool with true by (destruct Hc as [->| ->]; reflexivity).
    rewrite digits_text_map, (sign_app neg); [|assumption|rewrite <- (app_nil_r (map dchar ds)); apply dchar_nosign; [assumption|intros x r Q; discriminate]].
    replace (digits (map dchar ds)) with (ds, @nil ascii) by (symmetry; rewrite <- (app_nil_r (map dchar ds)); apply digits_app; [assumption|intros x r Q; discriminate]).
    destruct ds; [congruence|reflexivity].
Qed.
Lemma exps_head exp e : exps exp e -> solid exp /\ forall c r, exp = c :: r -> is_digit c = false /\ is c c_dot = false /\ is c "-" = false /\ is c "+" = false.
Proof.
  intros [[-> _]|(c & neg & sg & ds & Hc & -> & Hs & Hd & _)]; [split; [constructor|discriminate]|]. split.
  - constructor; [destruct Hc as [->| ->]; reflexivity|]. apply Forall_app. split; [eapply sign_solid; eassumption|]. rewrite digits_text_map. apply dchar_solid, Hd.
  - intros x r Q. injection Q as <- _. destruct Hc as [->| ->]; repeat split; reflexivity.
Qed.
Lemma number_of_iff t q : (exists v, number_of t = Some v /\ (v == q)%Q) <-> decimal t q.
Proof.
  unfold number_of, decimal. split.
  - intros (v & H & Hq). destruct (sign (strip t)) as [neg l] eqn:Es. destruct (digits l) as [a l1] eqn:Ea.
    destruct (strip_pads t) as (s1 & s2 & E & H1 & H2). destruct (sign_spec _ _ _ Es) as (sg & Eg & Hg). destruct (digits_spec _ _ _ Ea) as (El & Hd & Hn).
    assert (B : exists dot b l2, (match l1 with c :: r => if is c c_dot then digits r else ([], l1) | [] => ([], []) end) = (b, l2) /\ l1 = dot ++ l2 /\ are_digits b /\ ((dot = [] /\ b = []) \/ dot = c_dot :: txt (digits_text b))).
    { destruct l1 as [|c l1]; [exists [], [], []; split; [reflexivity|]; split; [reflexivity|]; split; [intros ? []|auto]|]. destruct (is c c_dot) eqn:Ec.
      - apply is_eq in Ec. subst c. destruct (digits l1) as [b l2] eqn:Eb. destruct (digits_spec _ _ _ Eb) as (-> & Hb & _). exists (c_dot :: map dchar b), b, l2. rewrite digits_text_map. split; [reflexivity|]; split; [reflexivity|]; split; [exact Hb|auto].
      - exists [], [], (c :: l1). split; [reflexivity|]; split; [reflexivity|]; split; [intros ? []|auto]. }
    destruct B as (dot & b & l2 & EB & -> & Hb & Hdot). rewrite EB in H. exists s1, s2, neg, sg, a, b, dot, l2.
    assert (N : a ++ b <> []) by (intros N; rewrite N in H; discriminate).
    assert (H' : option_map (fun e => ((if neg then -1 # 1 else 1 # 1) * inject_Z (value (a ++ b)) * Qpower (10 # 1) (e - Z.of_nat (length b)))%Q) (exponent l2) = Some v) by (destruct (a ++ b); [congruence|exact H]).
    destruct (exponent l2) as [e|] eqn:Ee; [|discriminate]. cbn [option_map] in H'. assert (V := f_equal (fun o => match o with Some x => x | None => 0%Q end) H'). cbn beta iota in V.
    exists e. split; [rewrite E at 1; rewrite Eg, El, digits_text_map, <- !app_assoc; reflexivity|]. repeat (split; [assumption|]). split; [apply exponent_iff; exact Ee|]. rewrite <- Hq, <- V. reflexivity.
  - intros (s1 & s2 & neg & sg & whole & part & dot & exp & e & -> & H1 & H2 & Hs & Hw & Hp & Hne & Hdot & He & Hq). change (exps exp e) in He. destruct (exps_head _ _ He) as [Se He'].
    rewrite digits_text_map. replace (s1 ++ sg ++ map dchar whole ++ dot ++ exp ++ s2) with (s1 ++ (sg ++ map dchar whole ++ dot ++ exp) ++ s2) by (rewrite <- !app_assoc; reflexivity).
    assert (Sd : solid dot). { destruct Hdot as [[-> _]| ->]; [constructor|]. constructor; [reflexivity|]. rewrite digits_text_map. apply dchar_solid, Hp. }
    assert (Nd : forall c r, dot ++ exp = c :: r -> is_digit c = false /\ is c "-" = false /\ is c "+" = false).
    { intros c r Q. destruct Hdot as [[-> _]| ->]; [destruct (He' c r Q) as (? & ? & ? & ?); auto|]. injection Q as <- _. repeat split; reflexivity. }
    rewrite strip_core; [|assumption..|repeat (apply Forall_app; split); [eapply sign_solid; eassumption|apply dchar_solid; assumption|exact Sd|exact Se]].
    rewrite (sign_app neg); [|assumption|apply dchar_nosign; [assumption|intros c r Q; apply (Nd c r Q)]]. rewrite digits_app; [|assumption|intros c r Q; apply (Nd c r Q)].
    assert (B : (match dot ++ exp with c :: r => if is c c_dot then digits r else ([], dot ++ exp) | [] => ([], []) end) = (part, exp)).
    { destruct Hdot as [[-> ->]| ->].
      - cbn. destruct exp as [|c r]; [reflexivity|]. destruct (He' c r eq_refl) as (_ & -> & _). reflexivity.
      - cbn. rewrite digits_text_map. apply digits_app; [assumption|]. intros c r Q. apply (He' c r Q). }
    rewrite B. exists ((if neg then -1 # 1 else 1 # 1) * inject_Z (number (whole ++ part)) * Qpower (10 # 1) (e - Z.of_nat (length part)))%Q. split; [|symmetry; exact Hq].
    apply exponent_iff in He. rewrite He. destruct (whole ++ part) eqn:Ew; [congruence|]. reflexivity.
Qed.
Lemma decimal_eq t q q' : decimal t q -> decimal t q' -> (q == q')%Q.
Proof. intros H1 H2. apply number_of_iff in H1 as (v & E & <-), H2 as (v' & E' & <-). congruence || (rewrite E in E'; injection E' as ->; reflexivity). Qed.

(** ** tables *)
Lemma Forall2_map_l {X Y Z} (R : Y -> Z -> Prop) (f : X -> Y) l m : Forall2 R (map f l) m <-> Forall2 (fun x => R (f x)) l m.
Proof.
  split.
  - revert m. induction l as [|x l IH]; intros m H; inversion H; subst; constructor; auto.
  - induction 1; constructor; auto.
Qed.
Lemma Forall2_fun {X Y} (f : X -> Y) l m : Forall2 (fun x y => f x = y) l m <-> m = map f l.
Proof.
  split.
  - induction 1; cbn; congruence.
  - intros ->. induction l; constructor; auto.
Qed.
Lemma Forall2_iff {X Y} (P Q : X -> Y -> Prop) : (forall x y, P x y <-> Q x y) -> forall l m, Forall2 P l m <-> Forall2 Q l m.
Proof. intros H l m. split; induction 1; constructor; auto; apply H; assumption. Qed.
Lemma lines_cells delim lines cells : Forall2 (line_cells delim) lines cells <-> cells = map (fields delim) lines.
Proof. rewrite <- Forall2_fun. apply Forall2_iff. intros x y. apply fields_iff. Qed.
Lemma nonempty_length {X} (l : list X) : nonempty l = negb (length l =? 0). Proof. destruct l; reflexivity. Qed.
Lemma filter_nonempty {X} (l : list (list X)) : filter nonempty l = filter (fun r => negb (length r =? 0)) l.
Proof. apply filter_ext. intros a. apply nonempty_length. Qed.

Section Load.
Context {A : Arith} (of_Q : Q -> num A) (special : text -> option (num A)).
Hypothesis of_Q_eq : forall a b, (a == b)%Q -> of_Q a = of_Q b.
Lemma cell_iff t x : cell of_Q special t = Some x <-> cell_value of_Q special t x.
Proof.
  unfold cell, cell_value. destruct (number_of t) as [q|] eqn:E.
  - assert (D : decimal t q) by (apply number_of_iff; exists q; split; [exact E|reflexivity]). split.
    + intros H. injection H as <-. left. exists q. auto.
    + intros [(q' & D' & ->)|[N _]]; [|destruct (N q D)]. f_equal. apply of_Q_eq. eapply decimal_eq; eassumption.
  - assert (N : forall q, ~ decimal t q). { intros q D. apply number_of_iff in D as (v & Ev & _). congruence. } split.
    + intros H. right. auto.
    + intros [(q & D & _)|[_ H]]; [destruct (N q D)|exact H].
Qed.
Lemma row_iff r v : mapM (fun t => of_option ValueError (cell of_Q special t)) r = Ok v <-> Forall2 (cell_value of_Q special) r v.
Proof.
  rewrite mapM_Forall2. apply Forall2_iff. intros x y. rewrite <- cell_iff. destruct (cell of_Q special x); cbn; split; intros H; try discriminate; injection H as <-; reflexivity.
Qed.
Lemma same_length {X} (l : list (list X)) : forallb (fun r => length r =? length (hd [] l)) l = true <-> (forall r r', In r l -> In r' l -> length r = length r').
Proof.
  rewrite forallb_forall. split.
  - intros H r r' Hr Hr'. apply H in Hr, Hr'. apply Nat.eqb_eq in Hr, Hr'. congruence.
  - intros H x Hx. apply Nat.eqb_eq, H; [exact Hx|]. destruct l; [destruct Hx|left; reflexivity].
Qed.
Theorem loadtxt_iff delim skip width lines rows : loadtxt of_Q special delim skip width lines = Ok rows <-> table_of of_Q special delim skip width lines rows.
Proof.
  unfold loadtxt, table_of. set (ls := skipn skip lines). split.
  - intros H. exists (map (fields delim) ls). split; [apply lines_cells; reflexivity|]. rewrite filter_nonempty in H. cbv zeta. set (kept := filter _ (map (fields delim) ls)) in *. destruct width as [n|].
    + apply bind_ok in H as (cut & H1 & H2). apply mapM_Forall2 in H1, H2. revert rows H2. induction H1 as [|r c rs cs E _ IH]; intros rows H2; inversion H2; subst; constructor; auto.
      apply bind_ok in E as ([] & E1 & E2). apply ok_eq in E2. subst c. unfold check in E1. destruct (n <=? length r) eqn:En; [|discriminate]. apply Nat.leb_le in En. split; [exact En|apply row_iff; assumption].
    + apply bind_ok in H as (cut & H1 & H2). apply bind_ok in H1 as ([] & E1 & E2). apply ok_eq in E2. subst cut. unfold check in E1.
      destruct (forallb (fun r => length r =? length (hd [] kept)) kept) eqn:Es; [|discriminate]. split; [apply same_length; exact Es|]. apply mapM_Forall2 in H2. eapply Forall2_iff; [|exact H2]. intros x y. symmetry. apply row_iff.
  - intros (cells & Hc & H). apply lines_cells in Hc. subst cells. rewrite filter_nonempty. cbv zeta in *. set (kept := filter _ (map (fields delim) ls)) in *. destruct width as [n|].
    + assert (C : mapM (fun r => ' _ <- check (n <=? length r) ValueError ;; Ok (firstn n r)) kept = Ok (map (firstn n) kept)).
      { apply mapM_ok_all. intros x Hx. apply In_nth_error in Hx as [i Hi]. destruct (Forall2_nth_error _ _ _ _ _ H Hi) as (y & _ & Hn & _). apply Nat.leb_le in Hn. rewrite Hn. reflexivity. }
      rewrite C. cbn [bind]. apply mapM_Forall2, Forall2_map_l. eapply Forall2_impl; [|exact H]. cbn. intros x y [_ Hy]. apply row_iff. exact Hy.
    + destruct H as [Hs H]. apply same_length in Hs. rewrite Hs. cbn [check bind]. apply mapM_Forall2. eapply Forall2_iff; [|exact H]. intros x y. apply row_iff.
Qed.
Lemma loadtxt_err delim skip width lines e : loadtxt of_Q special delim skip width lines = Err e -> e = ValueError.
Proof.
  unfold loadtxt. set (rows := filter nonempty _). intros H.
  match type of H with bind ?m ?k = _ => destruct m as [cut|e'] eqn:Ec; cbn [bind] in H end.
  - apply mapM_first in H as (l1 & x & l2 & _ & _ & H). apply mapM_first in H as (m1 & y & m2 & _ & _ & H). destruct (cell of_Q special y); cbn in H; congruence.
  - injection H as ->. destruct width as [n|].
    + apply mapM_first in Ec as (l1 & x & l2 & _ & _ & H). unfold check in H. destruct (n <=? length x); cbn in H; congruence.
    + unfold check in Ec. destruct (forallb _ rows); cbn in Ec; congruence.
Qed.
Lemma loadtxt_none delim skip width lines : (forall rows, ~ table_of of_Q special delim skip width lines rows) <-> loadtxt of_Q special delim skip width lines = Err ValueError.
Proof.
  destruct (loadtxt of_Q special delim skip width lines) as [rows|e] eqn:E.
  - split; [intros H; destruct (H rows); apply loadtxt_iff; exact E|discriminate].
  - rewrite (loadtxt_err _ _ _ _ _ E) in *. split; [reflexivity|]. intros _ rows H. apply loadtxt_iff in H. congruence.
Qed.
End Load.

(** ** the first line of Phoenix files *)
Lemma spaces_app a b : spaces (a ++ b) <-> spaces a /\ spaces b. Proof. apply Forall_app. Qed.
Lemma strip_pad s1 w s2 : spaces s1 -> spaces s2 -> strip (s1 ++ w ++ s2) = strip w.
Proof.
  intros H1 H2. apply strip_iff. destruct (proj1 (strip_iff w _) eq_refl) as (a & b & E & Ha & Hb & Hh & Hl). exists (s1 ++ a), (b ++ s2).
  split; [rewrite E at 1; rewrite <- !app_assoc; reflexivity|]. split; [apply spaces_app; auto|]. split; [apply spaces_app; auto|]. auto.
Qed.
Lemma spaces_no_comma s : spaces s -> Forall (fun c => is c c_comma = false) s.
Proof. intros H. eapply Forall_impl; [|exact H]. intros c Hc. destruct (is c c_comma) eqn:E; [|reflexivity]. apply is_eq in E. subst. apply white_iff in Hc. discriminate. Qed.
Lemma split_pad_r f s m : Forall (fun c => f c = false) s -> exists i w, split_by f m = i ++ [w] /\ split_by f (m ++ s) = i ++ [w ++ s].
Proof.
  intros Hs. induction m as [|c m (i & w & E1 & E2)].
  - exists [], []. cbn [app]. rewrite (split_word f s Hs). auto.
  - cbn [app split_by]. rewrite E1, E2. destruct (f c); [exists ([] :: i), w; auto|]. destruct i as [|x i]; [exists [], (c :: w); auto|exists ((c :: x) :: i), w; auto].
Qed.
Lemma strip_split l : map strip (split_by (fun c => is c c_comma) (strip l)) = map strip (split_by (fun c => is c c_comma) l).
Proof.
  destruct (strip_pads l) as (s1 & s2 & E & H1 & H2). rewrite E at 2. set (m := strip l). rewrite (split_app_word (fun c => is c c_comma)) by (apply spaces_no_comma; exact H1).
  destruct (split_pad_r (fun c => is c c_comma) s2 m (spaces_no_comma _ H2)) as (i & w & -> & ->). destruct i as [|x i].
  - cbn. rewrite strip_pad by assumption. reflexivity.
  - cbn. rewrite !map_app. cbn. rewrite <- (app_nil_r (s1 ++ x)), <- app_assoc, (strip_pad s1 x []) by (assumption || constructor). rewrite <- (app_nil_l (w ++ s2)), (strip_pad [] w s2) by (assumption || constructor). reflexivity.
Qed.
Lemma header_iff l n : header l n <-> exists a b c d,
  filter nonempty (map strip (split_by (fun c => is c c_comma) (strip l))) = [a; b; c; d] /\ int_of d = Some n.
Proof.
  unfold header. rewrite strip_split. split.
  - intros (cells & fs & f1 & f2 & f3 & f4 & -> & Hne & Hc & Hf & E & Hi). exists f1, f2, f3, f4. split; [|apply int_of_iff; exact Hi].
    rewrite split_joined by assumption. rewrite filter_nonempty, <- E. f_equal. symmetry. apply Forall2_fun. eapply Forall2_iff; [|exact Hf]. intros x y. apply strip_iff.
  - intros (f1 & f2 & f3 & f4 & E & Hi). destruct (split_spec c_comma l) as [H1 H2]. exists (split_by (fun c => is c c_comma) l), (map strip (split_by (fun c => is c c_comma) l)), f1, f2, f3, f4.
    split; [exact H1|]. split; [apply split_nonempty|]. split; [exact H2|]. split; [|split; [rewrite <- filter_nonempty; exact E|apply int_of_iff; exact Hi]].
    eapply (Forall2_iff (fun x y => strip x = y)); [intros x y; apply strip_iff|]. apply Forall2_fun. reflexivity.
Qed.

Lemma table_width {A : Arith} of_Q special delim skip n lines (rows : list (list (num A))) : table_of of_Q special delim skip (Some n) lines rows -> forall r, In r rows -> length r = n.
Proof.
  intros (cells & _ & H) r Hr. cbv zeta in H. apply In_nth_error in Hr as [i Hi]. destruct (Forall2_nth_error_r _ _ _ _ _ H Hi) as (x & _ & Hn & Hx).
  apply Forall2_len in Hx. rewrite firstn_length in Hx. lia.
Qed.
Lemma pairs_nth {A : Arith} : forall (l : list (num A)) i, 2 * i + 1 < length l -> nth i (pairs l) (nzero A, nzero A) = (nth (2 * i) l (nzero A), nth (2 * i + 1) l (nzero A)).
Proof.
  fix go 1. intros [|a [|b l]] i H; [cbn in H; lia|cbn in H; lia|]. destruct i as [|i]; [reflexivity|]. cbn [pairs nth]. rewrite (go l i) by (cbn in H; lia).
  replace (2 * S i) with (S (S (2 * i))) by lia. replace (S (S (2 * i)) + 1) with (S (S (2 * i + 1))) by lia. reflexivity.
Qed.
Lemma phoenix_rows_iff {A : Arith} of_Q special lines n (rows : list (list (num A))) : (forall a b, (a == b)%Q -> of_Q a = of_Q b) ->
  phoenix_rows of_Q special lines n rows <->
  match loadtxt of_Q special (Some c_comma) 1 (Some (2 + 2 * n)) lines with
  | Ok rows => Ok rows
  | Err _ => loadtxt of_Q special (Some c_comma) 2 (Some (2 + 2 * n)) lines
  end = Ok rows.
Proof.
  intros Hq. unfold phoenix_rows. change ","%char with c_comma. rewrite <- !(loadtxt_iff of_Q special Hq). destruct (loadtxt of_Q special (Some c_comma) 1 (Some (2 + 2 * n)) lines) as [r|e] eqn:E.
  - split.
    + intros [H|[N _]]; [exact H|]. destruct (N r). apply loadtxt_iff; [exact Hq|exact E].
    + intros H. left. exact H.
  - split.
    + intros [H|[_ H]]; [discriminate|exact H].
    + intros H. right. split; [|exact H]. intros r Hr. apply loadtxt_iff in Hr; [|exact Hq]. change c_comma with ","%char in *. congruence.
Qed.

(** ** Phoenix files *)
Section Phoenix.
Variable special : text -> option Qc.
Let file := phoenix_file (A := QA) Q2Qc special.
Let rows_of := phoenix_rows (A := QA) Q2Qc special.
Lemma Q2Qc_eq a b : (a == b)%Q -> Q2Qc a = Q2Qc b. Proof. intros H. apply Qc_is_canon. cbn. rewrite !Qred_correct. exact H. Qed.
Lemma filter_map_row level (rows : list (list Qc)) : filter (fun r : Qc * Qc * list cq => Qceqb (snd (fst r)) level) (map (phoenix_row (A := QA)) rows) = map (phoenix_row (A := QA)) (filter (fun r => Qceqb (nth 1 r 0%Qc) level) rows).
Proof. induction rows as [|r rows IH]; [reflexivity|]. cbn [map filter]. change (snd (fst (phoenix_row (A := QA) r))) with (nth 1 r 0%Qc). rewrite IH. destruct (Qceqb (nth 1 r 0%Qc) level); reflexivity. Qed.
Lemma file_inv lines level cals : file lines level = Ok cals <->
  exists n rows, header (hd [] lines) (Z.of_nat n) /\ rows_of lines n rows /\ length rows <> 1 /\ phoenix (A := QA) n (map (phoenix_row (A := QA)) rows) level = Ok cals.
Proof.
  unfold file, rows_of, phoenix_file. cbv zeta. split.
  - intros H. destruct (filter nonempty (map strip (split_by (fun c => is c c_comma) (strip (hd [] lines))))) as [|a [|b [|c [|d [|]]]]] eqn:Eh; try discriminate H.
    apply bind_ok in H as (z & Hz & H). apply bind_ok in H as ([] & Hp & H). apply bind_ok in H as (rows & Hr & H). apply bind_ok in H as ([] & Hl & H).
    unfold check in Hp, Hl. destruct (0 <=? z)%Z eqn:E0; [|discriminate]. apply Z.leb_le in E0. destruct (length rows =? 1) eqn:El; [discriminate|]. apply Nat.eqb_neq in El.
    exists (Z.to_nat z), rows. split; [|split; [|split; [exact El|exact H]]].
    + apply header_iff. exists a, b, c, d. split; [exact Eh|]. rewrite Z2Nat.id by exact E0. destruct (int_of d); cbn in Hz; congruence.
    + apply (phoenix_rows_iff (A := QA)); [apply Q2Qc_eq|exact Hr].
  - intros (n & rows & Hh & Hr & Hl & H). apply header_iff in Hh as (a & b & c & d & -> & Hd). rewrite Hd. cbn [of_option bind]. replace (0 <=? Z.of_nat n)%Z with true by (symmetry; apply Z.leb_le; lia). cbn [check bind].
    rewrite Nat2Z.id. apply (phoenix_rows_iff (A := QA)) in Hr; [|apply Q2Qc_eq]. rewrite Hr. cbn [bind]. apply Nat.eqb_neq in Hl. rewrite Hl. cbn. exact H.
Qed.
Lemma rows_width lines n rows : rows_of lines n rows -> forall r, In r rows -> length r = 2 + 2 * n.
Proof. intros [H|[_ H]]; eapply table_width; exact H. Qed.
Lemma points_eq n i level rows : i < n -> (forall r, In r rows -> length r = 2 + 2 * n) ->
  map (fun r : Qc * Qc * list cq => (fst (fst r), nth i (snd r) (0%Qc, 0%Qc))) (filter (fun r : Qc * Qc * list cq => Qceqb (snd (fst r)) level) (map (phoenix_row (A := QA)) rows)) = file_points i level rows.
Proof.
  intros Hi Hw. rewrite filter_map_row, map_map. unfold file_points.
  rewrite (filter_ext (fun r => if Qc_eq_dec (nth 1 r 0%Qc) level then true else false) (fun r => Qceqb (nth 1 r 0%Qc) level)) by (intros r; destruct (Qc_eq_dec (nth 1 r 0%Qc) level) as [E|E]; symmetry; [apply Qceqb_eq, E|apply not_true_is_false; rewrite Qceqb_eq; exact E]).
  apply map_ext_in. intros r Hr. apply filter_In in Hr as [Hr _]. apply Hw in Hr. cbn [phoenix_row fst snd]. f_equal.
  pose proof (pairs_nth (A := QA) (skipn 2 r) i) as P. cbn [num QA] in *. rewrite skipn_length in P. specialize (P ltac:(lia)). cbn [nzero QA] in P. etransitivity; [exact P|].
  destruct r as [|x [|y r]]; cbn in Hr; try lia. replace (2 * i + 1) with (1 + 2 * i) by lia. reflexivity.
Qed.
Lemma file_ok lines level cals : file lines level = Ok cals ->
  exists n rows, header (hd [] lines) (Z.of_nat n) /\ rows_of lines n rows /\ length rows <> 1 /\ (exists r, In r rows /\ nth 1 r 0%Qc = level) /\ length cals = n /\
  forall i cal, nth_error cals i = Some cal -> tabulation (file_points i level rows) -> tabulates (file_points i level rows) cal.
Proof.
  intros H. apply file_inv in H as (n & rows & Hh & Hr & Hl & H). apply phoenix_ok in H as (Hn & (r & Hin & Hlev) & H). exists n, rows. do 3 (split; [assumption|]).
  apply in_map_iff in Hin as (r' & <- & Hin). split; [exists r'; split; [exact Hin|exact Hlev]|]. split; [exact Hn|]. intros i cal Hi Ht.
  assert (i < n) by (rewrite <- Hn; apply nth_error_Some; congruence). apply (H i cal Hi); [|exact Ht]. symmetry. apply (points_eq n); [assumption|]. eapply rows_width. exact Hr.
Qed.
Lemma phoenix_def n (rows : list (Qc * Qc * list cq)) level : (exists r, In r rows /\ snd (fst r) = level) -> exists cals, phoenix (A := QA) n rows level = Ok cals.
Proof.
  intros (r & Hr & <-). unfold phoenix. cbv zeta. match goal with |- exists c, bind (check (negb (length ?l =? 0)) _) _ = _ => assert (I : In r l); [|destruct l as [|p l0]; [destruct I|]] end.
  - apply filter_In. split; [exact Hr|]. cbn. apply Qceqb_eq. reflexivity.
  - cbn [length Nat.eqb negb check bind]. eexists. reflexivity.
Qed.
Lemma file_succeeds lines level n rows : header (hd [] lines) (Z.of_nat n) -> rows_of lines n rows -> length rows <> 1 -> (exists r, In r rows /\ nth 1 r 0%Qc = level) -> exists cals, file lines level = Ok cals.
Proof.
  intros Hh Hr Hl (r & Hin & Hlev). destruct (phoenix_def n (map (phoenix_row (A := QA)) rows) level) as [cals H]; [exists (phoenix_row (A := QA) r); split; [apply in_map; exact Hin|exact Hlev]|].
  exists cals. apply file_inv. exists n, rows. auto.
Qed.
Lemma file_fails lines level e : file lines level = Err e ->
  (e = IndexError /\ exists n rows, header (hd [] lines) (Z.of_nat n) /\ rows_of lines n rows /\ length rows = 1) \/
  (e = ValueError /\ forall n rows, header (hd [] lines) (Z.of_nat n) -> rows_of lines n rows -> length rows <> 1 /\ forall r, In r rows -> nth 1 r 0%Qc <> level).
Proof.
  unfold file, phoenix_file. cbv zeta. intros H.
  assert (U : forall n rows, header (hd [] lines) (Z.of_nat n) -> rows_of lines n rows -> exists a b c d, filter nonempty (map strip (split_by (fun c => is c c_comma) (strip (hd [] lines)))) = [a; b; c; d] /\ int_of d = Some (Z.of_nat n) /\
    match loadtxt (A := QA) Q2Qc special (Some c_comma) 1 (Some (2 + 2 * n)) lines with Ok rows => Ok rows | Err _ => loadtxt (A := QA) Q2Qc special (Some c_comma) 2 (Some (2 + 2 * n)) lines end = Ok rows).
  { intros n rows Hh Hr. apply header_iff in Hh as (a & b & c & d & E & Hd). exists a, b, c, d. split; [exact E|]. split; [exact Hd|]. apply (phoenix_rows_iff (A := QA)); [apply Q2Qc_eq|exact Hr]. }
  destruct (filter nonempty (map strip (split_by (fun c => is c c_comma) (strip (hd [] lines))))) as [|a [|b [|c [|d [|]]]]] eqn:Eh;
    try (injection H as <-; right; split; [reflexivity|]; intros n rows Hh Hr; destruct (U n rows Hh Hr) as (? & ? & ? & ? & Q & _); discriminate Q).
  destruct (int_of d) as [z|] eqn:Ed; [|injection H as <-; right; split; [reflexivity|]; intros n rows Hh Hr; destruct (U n rows Hh Hr) as (? & ? & ? & ? & Q & Hi & _); injection Q as <- <- <- <-; congruence].
  cbn [of_option bind] in H. destruct (0 <=? z)%Z eqn:E0; cbn [check bind] in H.
  2: { injection H as <-. right. split; [reflexivity|]. intros n rows Hh Hr. destruct (U n rows Hh Hr) as (? & ? & ? & ? & Q & Hi & _). injection Q as <- <- <- <-. rewrite Ed in Hi. injection Hi as ->. apply Z.leb_gt in E0. lia. }
  apply Z.leb_le in E0.
  assert (V : forall n rows, header (hd [] lines) (Z.of_nat n) -> rows_of lines n rows ->
     match loadtxt (A := QA) Q2Qc special (Some c_comma) 1 (Some (2 + 2 * Z.to_nat z)) lines with Ok rows => Ok rows | Err _ => loadtxt (A := QA) Q2Qc special (Some c_comma) 2 (Some (2 + 2 * Z.to_nat z)) lines end = Ok rows).
  { intros n rows Hh Hr. destruct (U n rows Hh Hr) as (? & ? & ? & ? & Q & Hi & Hx). injection Q as <- <- <- <-. rewrite Ed in Hi. injection Hi as ->. rewrite Nat2Z.id. exact Hx. }
  destruct (match loadtxt (A := QA) Q2Qc special (Some c_comma) 1 (Some (2 + 2 * Z.to_nat z)) lines with Ok rows => Ok rows | Err _ => loadtxt (A := QA) Q2Qc special (Some c_comma) 2 (Some (2 + 2 * Z.to_nat z)) lines end) as [rows|e'] eqn:El.
  - cbn [bind] in H. destruct (length rows =? 1) eqn:E1; cbn [negb check bind] in H.
    + injection H as <-. left. split; [reflexivity|]. exists (Z.to_nat z), rows. split; [apply header_iff; exists a, b, c, d; rewrite Z2Nat.id by exact E0; split; [exact Eh|exact Ed]|].
      split; [apply (phoenix_rows_iff (A := QA)); [apply Q2Qc_eq|exact El]|apply Nat.eqb_eq; exact E1].
    + right. assert (N : forall r, In r (map (phoenix_row (A := QA)) rows) -> snd (fst r) <> level).
      { intros r Hr Hlev. destruct (phoenix_def (Z.to_nat z) (map (phoenix_row (A := QA)) rows) level) as [cals Hc]; [eauto|]. cbn [check bind negb] in H. cbn [num QA] in *. congruence. }
      split; [pose proof (phoenix_err (Z.to_nat z) _ level N); cbn [num QA] in *; congruence|]. intros n rows' Hh Hr. apply (V n) in Hr; [|exact Hh]. injection Hr as <-.
      split; [apply Nat.eqb_neq; exact E1|]. intros r Hr. apply (N (phoenix_row (A := QA) r)). apply in_map. exact Hr.
  - cbn [bind] in H. injection H as ->. right. split; [destruct (loadtxt (A := QA) Q2Qc special (Some c_comma) 1 (Some (2 + 2 * Z.to_nat z)) lines); [discriminate|eapply loadtxt_err; exact El]|].
    intros n rows Hh Hr. apply (V n) in Hr; [discriminate|exact Hh].
Qed.
End Phoenix.

(** ** Metronix tables *)
Section Load3.
Variable special : text -> option Qc.
Lemma load3_iff lines table : load3 (A := QA) Q2Qc special lines = Ok table <->
  exists rows, table_of (A := QA) Q2Qc special None 0 None lines rows /\ 2 <= length rows /\ Forall2 starts rows table.
Proof.
  unfold load3. split.
  - intros H. apply bind_ok in H as (rows & H1 & H). apply bind_ok in H as ([] & H2 & H). exists rows. split; [apply (loadtxt_iff (A := QA)); [apply Q2Qc_eq|exact H1]|].
    unfold check in H2. destruct (2 <=? length rows) eqn:E; [|discriminate]. split; [apply Nat.leb_le; exact E|]. apply mapM_Forall2 in H. eapply Forall2_impl; [|exact H].
    intros [|x [|y [|z r]]] t Ht; try discriminate. apply ok_eq in Ht. subst t. exists r. reflexivity.
  - intros (rows & H1 & H2 & H). apply (loadtxt_iff (A := QA)) in H1; [|apply Q2Qc_eq]. rewrite H1. cbn [bind]. apply Nat.leb_le in H2. cbn [num QA] in *. rewrite H2. cbn [check bind]. apply mapM_Forall2. eapply Forall2_impl; [|exact H].
    intros r [[x y] z] [rest ->]. reflexivity.
Qed.
Lemma load3_err lines e : load3 (A := QA) Q2Qc special lines = Err e ->
  (e = ValueError /\ forall rows, ~ table_of (A := QA) Q2Qc special None 0 None lines rows) \/
  (e = IndexError /\ exists rows, table_of (A := QA) Q2Qc special None 0 None lines rows /\ (length rows < 2 \/ exists r, In r rows /\ length r < 3)).
Proof.
  unfold load3. intros H. destruct (loadtxt (A := QA) Q2Qc special None 0 None lines) as [rows|e'] eqn:E.
  - right. cbn [bind] in H. apply (loadtxt_iff (A := QA)) in E; [|apply Q2Qc_eq]. cbn [num QA] in *. destruct (2 <=? length rows) eqn:E2; cbn [check bind] in H.
    + apply mapM_first in H as (l1 & x & l2 & -> & _ & H). destruct x as [|a [|b [|c x]]]; try discriminate; injection H as <-; (split; [reflexivity|]; eexists; split; [exact E|]; right; eexists; split; [apply in_or_app; right; left; reflexivity|cbn; lia]).
    + injection H as <-. split; [reflexivity|]. exists rows. split; [exact E|]. left. apply Nat.leb_gt. exact E2.
  - cbn in H. injection H as ->. left. pose proof (loadtxt_err _ _ _ _ _ _ _ E). subst e. split; [reflexivity|]. apply (loadtxt_none (A := QA)); [apply Q2Qc_eq|exact E].
Qed.
End Load3.

(** ** Metronix files *)
Section Metronix.
Variables (cal_mp : Qc -> Qc -> Qc -> cq) (angle : Qc -> Qc -> Qc) (special : text -> option Qc)
    (version_of : text -> option text) (read : path -> res (list text)) (pkg cwd : path) (fs : fsys)
    (filename : text) (rate limit : Qc) (alphas : list (text * Qc)).
Let run := metronix (A := QA) cal_mp angle (load3 (A := QA) Q2Qc special) version_of read pkg cwd fs filename rate limit alphas.
Let rows_of := table_of (A := QA) Q2Qc special None 0 None.
Lemma metronix_file_ok cal : run = Ok cal ->
  exists p lines on body rows table st v alpha f0 m0,
    get_data_file pkg cwd fs filename (txt "metronix_calibration") = Ok p /\ read p = Ok lines /\
    (on = true <-> (rate <= limit)%Qc) /\ section_of on lines body /\
    rows_of body rows /\ 2 <= length rows /\ Forall2 starts rows table /\
    option_map fst (hd_error table) = Some (f0, m0) /\
    stem_of (List.last (p_parts p) []) st /\ version_of st = Some v /\ In (v, alpha) alphas /\
    (forall f, (f < f0)%Qc -> on = true -> cal f = Ok (cal_mp f m0 (angle f alpha))) /\
    (tabulation (map (row_point cal_mp) table) ->
     exists g, tabulates (map (row_point cal_mp) table) g /\
     forall f, (f0 <= f)%Qc \/ on = false -> cal f = g f).
Proof.
  intros H. apply PropCal.C73_selection in H as (p & lines & on & body & table & st & v & alpha & f0 & m0 & H1 & H2 & H3 & H4 & H5 & H6 & H).
  apply load3_iff in H5 as (rows & R1 & R2 & R3). exists p, lines, on, body, rows, table, st, v, alpha, f0, m0. do 7 (split; [assumption|]). exact H.
Qed.
Lemma starts_exist (rows : list (list Qc)) : (forall r, In r rows -> 3 <= length r) -> exists table, Forall2 starts rows table.
Proof.
  induction rows as [|r rows IH]; intros H; [exists []; constructor|]. destruct IH as [t Ht]; [intros x Hx; apply H; right; exact Hx|].
  pose proof (H r (or_introl eq_refl)) as L. destruct r as [|a [|b [|c r]]]; cbn in L; try lia. exists ((a, b, c) :: t). constructor; [exists r; reflexivity|exact Ht].
Qed.
Lemma metronix_file_succeeds p lines on body rows st v :
  get_data_file pkg cwd fs filename (txt "metronix_calibration") = Ok p -> read p = Ok lines ->
  (on = true <-> (rate <= limit)%Qc) -> section_of on lines body ->
  rows_of body rows -> 2 <= length rows -> (forall r, In r rows -> 3 <= length r) ->
  stem_of (List.last (p_parts p) []) st -> version_of st = Some v -> In v (map fst alphas) -> exists cal, run = Ok cal.
Proof.
  intros H1 H2 H3 H4 H5 H6 H7 H8 H9 H10. destruct (starts_exist rows H7) as [table Ht]. pose proof (Forall2_len _ _ _ Ht) as L.
  apply (PropCal.C73_succeeds cal_mp angle (load3 (A := QA) Q2Qc special) version_of read pkg cwd fs filename rate limit alphas p lines on body table st v); try assumption; [|cbn [num QA] in *; lia].
  apply load3_iff. exists rows. auto.
Qed.
Lemma metronix_file_fails p lines on body :
  get_data_file pkg cwd fs filename (txt "metronix_calibration") = Ok p -> read p = Ok lines ->
  (on = true <-> (rate <= limit)%Qc) -> section_of on lines body ->
  ((forall rows, ~ rows_of body rows) -> run = Err ValueError) /\
  (forall rows, rows_of body rows -> (length rows < 2 \/ exists r, In r rows /\ length r < 3) -> run = Err IndexError).
Proof.
  intros H1 H2 Hon H3.
  assert (on = Qcleb rate limit) as -> by (destruct on, (Qcleb rate limit) eqn:E; try reflexivity; [apply Qcleb_gt in E; exfalso; apply (Qclt_not_le _ _ E), Hon; reflexivity|apply Qcleb_le, Hon in E; discriminate]).
  apply section_ok in H3. unfold run, metronix. rewrite H1. cbn [bind]. rewrite H2. cbn [bind]. cbv zeta. change (nleb QA rate limit) with (Qcleb rate limit). rewrite H3. cbn [bind]. split.
  - intros N. destruct (load3 (A := QA) Q2Qc special body) as [t|e] eqn:E; [apply load3_iff in E as (rows & R & _); destruct (N rows R)|].
    apply load3_err in E as [[-> _]|(_ & rows & R & _)]; [reflexivity|destruct (N rows R)].
  - intros rows R Hbad. destruct (load3 (A := QA) Q2Qc special body) as [t|e] eqn:E.
    + exfalso. apply load3_iff in E as (rows' & R' & L & F). apply (loadtxt_iff (A := QA)) in R; [|apply Q2Qc_eq]. apply (loadtxt_iff (A := QA)) in R'; [|apply Q2Qc_eq]. assert (rows' = rows) by congruence. subst rows'.
      cbn [num QA] in *. destruct Hbad as [B|(r & Hr & B)]; [lia|]. apply In_nth_error in Hr as [i Hi]. destruct (Forall2_nth_error _ _ _ _ _ F Hi) as (y & _ & rest & ->). cbn in B. lia.
    + apply load3_err in E as [[_ N]|[-> _]]; [destruct (N rows R)|reflexivity].
Qed.
End Metronix.

(** ** comparison of samples *)
Definition ld_values (r : res (list (list Qc))) : res (list (list Q)) := match r with Ok l => Ok (map (map (fun x : Qc => this x)) l) | Err e => Err e end.
Lemma map_inj {X Y} (f : X -> Y) : (forall a b, f a = f b -> a = b) -> forall l m, map f l = map f m -> l = m.
Proof. intros Hf. induction l as [|a l IH]; intros [|b m] H; try discriminate; [reflexivity|]. injection H as H1 H2. f_equal; auto. Qed.
Lemma ld_values_inj r r' : ld_values r = ld_values r' -> r = r'.
Proof.
  destruct r as [l|e], r' as [l'|e']; cbn; intros H; try discriminate; [|injection H as ->; reflexivity]. apply ok_eq in H. f_equal. revert H. apply map_inj, map_inj. intros a b E. apply Qc_is_canon. rewrite E. reflexivity.
Qed.
