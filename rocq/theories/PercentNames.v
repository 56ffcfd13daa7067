(** Proofs about percent signs in the names of the tags of a signal set. *)
From Verif Require Import Base BaseLemmas Arith TagsModel SpecTags SyncModel SetModel ReprModel SpecRepr ReprProofs.
Local Open Scope string_scope. Local Open Scope list_scope. Local Open Scope nat_scope.
Notation pc := "%"%char.

Lemma string_ind2 (P : string -> Prop) : P EmptyString -> (forall c, P (String c EmptyString)) ->
  (forall c d s, P s -> P (String d s) -> P (String c (String d s))) -> forall s, P s.
Proof.
  intros H0 H1 H2 s. enough (P s /\ forall c, P (String c s)) by tauto. induction s as [|d s [IH1 IH2]]; split; auto.
Qed.

Fixpoint halve (s : string) : option string :=
  match s with
  | EmptyString => Some EmptyString
  | String c r =>
      if Ascii.eqb c pc then
        match r with
        | String d r' => if Ascii.eqb d pc then option_map (String pc) (halve r') else None
        | EmptyString => None
        end
      else option_map (String c) (halve r)
  end.
Lemma halve_cons c s : c <> pc -> halve (String c s) = option_map (String c) (halve s).
Proof. intros N. cbn [halve]. rewrite (proj2 (Ascii.eqb_neq c pc) N). reflexivity. Qed.
Lemma halve_iff s : forall t, halve s = Some t <-> halved s t.
Proof.
  induction s as [|c|c d s IH1 IH2] using string_ind2; intros t.
  - cbn. split; [intros E; injection E as <-; constructor|inversion 1; reflexivity].
  - cbn. destruct (Ascii.eqb_spec c pc) as [->|N].
    + split; [discriminate|]. inversion 1; subst; congruence.
    + split; [intros E; injection E as <-; repeat constructor; exact N|]. inversion 1 as [|? ? ? N' G|]; subst. inversion G; subst. reflexivity.
  - cbn [halve]. destruct (Ascii.eqb_spec c pc) as [->|N].
    + destruct (Ascii.eqb_spec d pc) as [->|N'].
      * split.
        -- destruct (halve s) as [u|]; [|discriminate]. intros E. injection E as <-. apply hv_pair. apply IH1. reflexivity.
        -- inversion 1 as [|? ? ? N' G|? ? G]; subst; [congruence|]. apply IH1 in G. rewrite G. reflexivity.
      * split; [discriminate|]. inversion 1; subst; congruence.
    + split.
      * destruct (if Ascii.eqb d pc then _ else _) as [u|] eqn:E; [|discriminate]. intros F. injection F as <-. apply hv_plain; [exact N|]. apply IH2. exact E.
      * inversion 1 as [|? ? u N' G|]; subst; [|congruence]. apply IH2 in G. cbn [halve] in G. rewrite G. reflexivity.
Qed.

Lemma halve_length s : forall t, halve s = Some t -> String.length t <= String.length s /\ (In pc (chars s) -> String.length t < String.length s).
Proof.
  intros t H. apply halve_iff in H. induction H as [|c s t N H [I1 I2]|s t H [I1 I2]]; cbn [String.length chars In].
  - split; [lia|intros []].
  - split; [lia|]. intros [->|G]; [congruence|]. specialize (I2 G). lia.
  - split; lia.
Qed.
Lemma halve_plain s : plain_text s -> halve s = Some s.
Proof.
  intros H. induction s as [|c s IH]; [reflexivity|]. cbn [halve]. destruct (Ascii.eqb_spec c pc) as [->|N]; [exfalso; apply H; left; reflexivity|].
  rewrite IH; [reflexivity|]. intros G. apply H. right. exact G.
Qed.

Lemma plain_by s : has pc s = false -> plain_text s.
Proof. intros H G. apply has_iff in G. congruence. Qed.

Definition heads (s : string) : Prop := match s with EmptyString => True | String c _ => c <> pc end.
Definition both (a b : option string) : option string := match a, b with Some a, Some b => Some (a ++ b)%string | _, _ => None end.
Lemma halve_app b a : heads b -> halve (a ++ b)%string = both (halve a) (halve b).
Proof.
  intros H. induction a as [|c|c d a IH1 IH2] using string_ind2.
  - cbn. destruct (halve b); reflexivity.
  - cbn [append halve]. destruct (Ascii.eqb_spec c pc) as [->|N].
    + destruct b as [|d b]; [reflexivity|]. cbn in H. destruct (Ascii.eqb_spec d pc); [congruence|reflexivity].
    + destruct (halve b); reflexivity.
  - cbn [append] in *. destruct (Ascii.eqb_spec c pc) as [->|N].
    + cbn [halve]. rewrite Ascii.eqb_refl. destruct (Ascii.eqb_spec d pc); [|reflexivity]. rewrite IH1. destruct (halve a), (halve b); reflexivity.
    + rewrite !(halve_cons c) by exact N. rewrite IH2. destruct (halve (String d a)), (halve b); reflexivity.
Qed.
Lemma halve_app_plain b a : heads b -> plain_text b -> halve (a ++ b)%string = option_map (fun a => a ++ b)%string (halve a).
Proof. intros H P. rewrite halve_app by exact H. rewrite (halve_plain _ P). destruct (halve a); reflexivity. Qed.
Lemma halve_plain_app a b : plain_text a -> halve (a ++ b)%string = option_map (append a) (halve b).
Proof.
  intros P. induction a as [|c a IH]; [cbn; destruct (halve b); reflexivity|]. cbn [append halve].
  destruct (Ascii.eqb_spec c pc) as [->|N]; [exfalso; apply P; left; reflexivity|]. rewrite IH; [destruct (halve b); reflexivity|].
  intros G. apply P. right. exact G.
Qed.

(** ** literals *)
Lemma halve_escape q s : q <> pc -> halve (escape q s) = option_map (escape q) (halve s).
Proof.
  intros Q. induction s as [|c|c d s IH1 IH2] using string_ind2.
  - reflexivity.
  - cbn [escape]. destruct (Ascii.eqb_spec c pc) as [->|N].
    + replace (Ascii.eqb pc q) with false by (symmetry; apply Ascii.eqb_neq; congruence). reflexivity.
    + destruct (Ascii.eqb c "\" || Ascii.eqb c q) eqn:E; cbn [halve]; rewrite (proj2 (Ascii.eqb_neq c pc) N).
      * cbn [Ascii.eqb Bool.eqb option_map]. cbn [escape]. rewrite E. reflexivity.
      * cbn [option_map escape]. rewrite E. reflexivity.
  - change (escape q (String c (String d s))) with
      (if Ascii.eqb c "\" || Ascii.eqb c q then String "\" (String c (escape q (String d s))) else String c (escape q (String d s))).
    assert (PQ : Ascii.eqb pc q = false) by (apply Ascii.eqb_neq; congruence).
    destruct (Ascii.eqb_spec c pc) as [->|N].
    + rewrite PQ. cbn [Ascii.eqb Bool.eqb orb]. cbn [halve]. rewrite !Ascii.eqb_refl. cbn [escape].
      destruct (Ascii.eqb_spec d pc) as [->|N'].
      * rewrite PQ. cbn [Ascii.eqb Bool.eqb orb]. rewrite IH1. destruct (halve s) as [u|]; [|reflexivity]. cbn [option_map escape]. rewrite PQ. reflexivity.
      * destruct (Ascii.eqb d "\" || Ascii.eqb d q); [reflexivity|]. rewrite (proj2 (Ascii.eqb_neq d pc) N'). reflexivity.
    + assert (F : halve (String c (String d s)) = option_map (String c) (halve (String d s))) by (cbn [halve]; rewrite (proj2 (Ascii.eqb_neq c pc) N); reflexivity).
      assert (G : forall x, halve (String c x) = option_map (String c) (halve x)) by (intros x; cbn [halve]; rewrite (proj2 (Ascii.eqb_neq c pc) N); reflexivity).
      rewrite F. destruct (Ascii.eqb c "\" || Ascii.eqb c q) eqn:E.
      * assert (G' : forall x, halve (String "\" x) = option_map (String "\") (halve x)) by reflexivity.
        rewrite G', G, IH2. destruct (halve (String d s)) as [u|]; [|reflexivity]. cbn [option_map escape]. rewrite E. reflexivity.
      * rewrite G, IH2. destruct (halve (String d s)) as [u|]; [|reflexivity]. cbn [option_map escape]. rewrite E. reflexivity.
Qed.
Lemma halve_has c s t : c <> pc -> halve s = Some t -> has c t = has c s.
Proof.
  intros N H. apply halve_iff in H. unfold has. induction H as [|d s t N' H IH|s t H IH]; cbn [chars existsb]; [reflexivity|rewrite IH; reflexivity|].
  rewrite IH. rewrite (proj2 (Ascii.eqb_neq c pc) N). reflexivity.
Qed.
Lemma halve_literal s : halve (str_repr s) = option_map str_repr (halve s).
Proof.
  unfold str_repr at 1. set (q := if has squote s && negb (has dquote s) then dquote else squote).
  assert (Q : q <> pc) by (unfold q; destruct (_ && _); discriminate).
  change (String q (escape q s ++ String q ""))%string with ((String q "") ++ (escape q s ++ String q ""))%string.
  rewrite halve_plain_app by (intros [G|[]]; apply Q; exact G).
  rewrite halve_app_plain by (first [exact Q|intros [G|[]]; apply Q; exact G]). rewrite halve_escape by exact Q.
  destruct (halve s) as [t|] eqn:E; [|reflexivity]. cbn [option_map]. f_equal. unfold str_repr.
  rewrite (halve_has squote s t) by (first [discriminate|exact E]). rewrite (halve_has dquote s t) by (first [discriminate|exact E]). reflexivity.
Qed.

(** ** the texts of all the tags *)
Definition tag_repr (e : string * list nat) : string := (str_repr (fst e) ++ ": " ++ tupled (snd e))%string.
Fixpoint halves (l : list (string * list nat)) : option (list (string * list nat)) :=
  match l with
  | [] => Some []
  | e :: l => match halve (fst e), halves l with Some k, Some l => Some ((k, snd e) :: l) | _, _ => None end
  end.
Lemma colon_plain l : plain_text (": " ++ tupled l) /\ heads (": " ++ tupled l).
Proof. split; [|discriminate]. intros [G|[G|G]]; try discriminate. exact (tupled_plain l G). Qed.
Lemma halve_tag e : halve (tag_repr e) = option_map (fun k => tag_repr (k, snd e)) (halve (fst e)).
Proof.
  unfold tag_repr. destruct (colon_plain (snd e)) as [P H]. rewrite halve_app_plain by assumption. rewrite halve_literal. destruct (halve (fst e)); reflexivity.
Qed.
Lemma listed_cons x y l : listed (x :: y :: l) = (x ++ ", " ++ listed (y :: l))%string. Proof. reflexivity. Qed.
Lemma halve_listed l : halve (listed (map tag_repr l)) = option_map (fun l => listed (map tag_repr l)) (halves l).
Proof.
  induction l as [|e l IH]; [reflexivity|]. destruct l as [|e' l].
  - cbn [map listed halves]. rewrite halve_tag. destruct (halve (fst e)); reflexivity.
  - cbn [map] in *. rewrite listed_cons. rewrite halve_app by discriminate. rewrite halve_tag.
    change (halves (e :: e' :: l)) with (match halve (fst e), halves (e' :: l) with Some k, Some l => Some ((k, snd e) :: l) | _, _ => None end).
    rewrite halve_plain_app by (intros [G|[G|[]]]; discriminate). rewrite IH. destruct (halve (fst e)) as [k|]; [|reflexivity].
    destruct (halves (e' :: l)) as [m|] eqn:E; [|reflexivity]. cbn [option_map both].
    cbn [halves] in E. destruct (halve (fst e')), (halves l); try discriminate. injection E as <-. reflexivity.
Qed.
Lemma halves_iff l : forall m, halves l = Some m <-> Forall2 (fun e e' => halved (fst e) (fst e') /\ snd e' = snd e) l m.
Proof.
  induction l as [|e l IH]; intros m; cbn [halves].
  - split; [intros E; injection E as <-; constructor|inversion 1; reflexivity].
  - split.
    + destruct (halve (fst e)) as [k|] eqn:E; [|discriminate]. destruct (halves l) as [l'|]; [|discriminate]. intros F. injection F as <-.
      constructor; [split; [apply halve_iff; exact E|reflexivity]|]. apply IH. reflexivity.
    + inversion 1 as [|? [k v] ? l' [H1 H2] H3]; subst. cbn [fst snd] in *. apply halve_iff in H1. apply IH in H3. rewrite H1, H3, H2. reflexivity.
Qed.

(** ** formatting *)
Lemma percent_halve s : forall t r arg, halve s = Some t -> percent (s ++ r)%string arg = (x <- percent r arg ;; Ok (t ++ x)%string).
Proof.
  intros t r arg H. apply halve_iff in H. induction H as [|c s t N H IH|s t H IH].
  - cbn. destruct (percent r arg); reflexivity.
  - cbn [append percent]. rewrite (proj2 (Ascii.eqb_neq c pc) N), IH. destruct (percent r arg); reflexivity.
  - cbn [append percent]. rewrite Ascii.eqb_refl, IH. destruct (percent r arg); reflexivity.
Qed.
Lemma percent_used s : exists e, percent (s ++ ", %s)")%string None = Err e.
Proof.
  induction s as [|c|c d s [e IH1] [e' IH2]] using string_ind2.
  - eexists. reflexivity.
  - cbn [append percent]. destruct (Ascii.eqb c pc); eexists; reflexivity.
  - cbn [append] in *. cbn [percent]. destruct (Ascii.eqb c pc).
    + destruct (Ascii.eqb d pc); [rewrite IH1; eexists; reflexivity|]. destruct (Ascii.eqb d "s"); eexists; reflexivity.
    + cbn [percent] in IH2. rewrite IH2. eexists. reflexivity.
Qed.
Lemma percent_odd s arg : halve s = None -> exists e, percent (s ++ ", %s)")%string (Some arg) = Err e.
Proof.
  induction s as [|c|c d s IH1 IH2] using string_ind2; intros H; cbn [halve] in H.
  - discriminate.
  - destruct (Ascii.eqb c pc) eqn:E; [|discriminate]. cbn [append percent]. rewrite E. eexists. reflexivity.
  - destruct (Ascii.eqb c pc) eqn:E.
    + cbn [append percent]. rewrite E. destruct (Ascii.eqb d pc).
      * destruct IH1 as [e IH1]; [destruct (halve s); [discriminate|reflexivity]|]. rewrite IH1. eexists. reflexivity.
      * destruct (Ascii.eqb d "s"); [|eexists; reflexivity]. destruct (percent_used s) as [e ->]. eexists. reflexivity.
    + destruct IH2 as [e IH2]; [cbn [halve]; destruct (if Ascii.eqb d pc then _ else _); [discriminate|reflexivity]|].
      exists e. cbn [append] in *. change (percent (String c (String d (s ++ ", %s)"))) (Some arg)) with
        (if Ascii.eqb c pc then (if Ascii.eqb d pc then x <- percent (s ++ ", %s)") (Some arg) ;; Ok (String c x)
          else if Ascii.eqb d "s" then x <- percent (s ++ ", %s)") None ;; Ok (arg ++ x)%string else Err OtherException)
         else x <- percent (String d (s ++ ", %s)")) (Some arg) ;; Ok (String c x)). rewrite E, IH2. reflexivity.
Qed.

Section Sets.
Context {A : Arith} {V K : Type} (show : num A -> string).
Notation run_text := (run_text show).
Definition around (tags : string) (X : @sigset A V K) : string :=
  ("SignalSet({" ++ tags ++ "}, " ++ listed (map run_text (ss_signals X)) ++ ")")%string.
Lemma set_repr_halve (X : @sigset A V K) :
  match halves (t_dict (ss_tags X)) with
  | Some items => set_repr show X = Ok (around (listed (map tag_repr items)) X)
  | None => exists e, set_repr show X = Err e
  end.
Proof.
  assert (E : tags_str (ss_tags X) = ("{" ++ listed (map tag_repr (t_dict (ss_tags X))) ++ "}")%string).
  { unfold tags_str. rewrite concat_listed. do 3 f_equal. apply map_ext_in. intros [k l] Hin. unfold tag_repr. cbn [fst snd]. rewrite tuple_tupled. reflexivity. }
  assert (F : halve ("SignalSet(" ++ tags_str (ss_tags X)) = option_map (fun l => "SignalSet({" ++ listed (map tag_repr l) ++ "}")%string (halves (t_dict (ss_tags X)))).
  { rewrite E. rewrite halve_plain_app by (apply plain_by; reflexivity). rewrite halve_plain_app by (apply plain_by; reflexivity).
    rewrite halve_app_plain by (first [discriminate|apply plain_by; reflexivity]). rewrite halve_listed. destruct (halves _); reflexivity. }
  unfold set_repr. set (arg := String.concat ", " (map (sync_repr show) (ss_signals X))).
  replace ("SignalSet(" ++ tags_str (ss_tags X) ++ ", %s)")%string with (("SignalSet(" ++ tags_str (ss_tags X)) ++ ", %s)")%string
    by (apply chars_inj; rewrite !chars_app, <- !app_assoc; reflexivity).
  destruct (halves (t_dict (ss_tags X))) as [items|]; cbn [option_map] in F.
  - rewrite (percent_halve _ _ _ _ F). cbn [percent Ascii.eqb Bool.eqb bind]. unfold around. f_equal. unfold arg. rewrite concat_listed.
    change (map (sync_repr show) (ss_signals X)) with (map run_text (ss_signals X)).
    apply chars_inj. rewrite !chars_app. cbn [chars app]. rewrite <- !app_assoc, ?chars_app. cbn [chars app]. rewrite ?chars_app, <- ?app_assoc. reflexivity.
  - apply percent_odd. exact F.
Qed.
Lemma tag_repr_text l texts : Forall2 tag_text l texts <-> texts = map tag_repr l.
Proof.
  split.
  - induction 1 as [|e t l texts (u & Hu & ->) H IH]; [reflexivity|]. cbn [map]. unfold tag_repr at 1. rewrite (literal_functional _ _ _ Hu (str_repr_literal (fst e))), IH. reflexivity.
  - intros ->. induction l as [|e l IH]; constructor; [|exact IH]. eexists. split; [apply str_repr_literal|reflexivity].
Qed.
Lemma set_repr_percent (X : @sigset A V K) t :
  set_repr show X = Ok t <->
  exists items texts, Forall2 (fun e e' => halved (fst e) (fst e') /\ snd e' = snd e) (t_dict (ss_tags X)) items /\ Forall2 tag_text items texts /\
  t = ("SignalSet({" ++ listed texts ++ "}, " ++ listed (map run_text (ss_signals X)) ++ ")")%string.
Proof.
  pose proof (set_repr_halve X) as H. split.
  - intros G. destruct (halves (t_dict (ss_tags X))) as [items|] eqn:E; [|destruct H as [e H]; congruence].
    exists items, (map tag_repr items). split; [apply halves_iff; exact E|]. split; [apply tag_repr_text; reflexivity|]. rewrite G in H. injection H as H. exact H.
  - intros (items & texts & H1 & H2 & ->). apply halves_iff in H1. apply tag_repr_text in H2. subst texts. rewrite H1 in H. exact H.
Qed.
Lemma listed_tags_length l : forall m, halves l = Some m -> (exists e, In e l /\ In pc (chars (fst e))) ->
  listed (map tag_repr m) <> listed (map tag_repr l).
Proof.
  intros m H (e & He & Hp) E.
  assert (G : halve (listed (map tag_repr l)) = Some (listed (map tag_repr m))) by (rewrite halve_listed, H; reflexivity).
  apply halve_length in G as [_ G]. rewrite E in G. enough (In pc (chars (listed (map tag_repr l)))) by (specialize (G H0); lia).
  clear -He Hp. assert (T : In pc (chars (tag_repr e))).
  { unfold tag_repr. rewrite chars_app. apply in_or_app. left. unfold str_repr. cbn [chars]. right. rewrite chars_app. apply in_or_app. left.
    generalize (if has squote (fst e) && negb (has dquote (fst e)) then dquote else squote). intros q. induction (fst e) as [|c s IH]; [destruct Hp|]. cbn [escape].
    destruct (_ || _); cbn [chars In] in *; destruct Hp as [->|Hp]; auto. }
  induction l as [|x l IH]; [destruct He|]. destruct l as [|y l].
  - destruct He as [->|[]]. exact T.
  - cbn [map]. rewrite listed_cons, !chars_app. apply in_or_app. destruct He as [->|He]; [left; exact T|]. right. apply in_or_app. right. apply IH. exact He.
Qed.
Lemma set_repr_wrong (X : @sigset A V K) texts : (exists k l, reads (ss_tags X) k l /\ In pc (chars k)) -> Forall2 tag_text (t_dict (ss_tags X)) texts ->
  set_repr show X <> Ok ("SignalSet({" ++ listed texts ++ "}, " ++ listed (map run_text (ss_signals X)) ++ ")")%string.
Proof.
  intros (k & l & Hr & Hp) Ht. apply tag_repr_text in Ht. subst texts. pose proof (set_repr_halve X) as H.
  destruct (halves (t_dict (ss_tags X))) as [items|] eqn:E; [|destruct H as [e H]; congruence]. rewrite H. intros G.
  apply (f_equal (fun r => match r with Ok x => x | Err _ => "" end)) in G. unfold around in G.
  apply (listed_tags_length _ _ E); [exists (k, l); split; [exact Hr|exact Hp]|].
  apply (f_equal chars) in G. rewrite !chars_app in G. apply chars_inj. apply app_inv_head, app_inv_tail in G. exact G.
Qed.
End Sets.
