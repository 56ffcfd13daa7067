(** Proofs about the texts of tags and signal sets. *)
From Coq Require Import DecimalString DecimalNat.
From Verif Require Import Base BaseLemmas Arith TagsModel SpecTags TagsProofs SyncModel SetModel ReprModel SpecRepr.
Local Open Scope string_scope. Local Open Scope list_scope. Local Open Scope nat_scope.

(** ** strings as lists *)
Notation chars := list_ascii_of_string.
Lemma chars_app a b : chars (a ++ b)%string = chars a ++ chars b.
Proof. induction a as [|c a IH]; simpl; [reflexivity|]. rewrite IH. reflexivity. Qed.
Lemma chars_inj a b : chars a = chars b -> a = b.
Proof. intros H. rewrite <- (string_of_list_ascii_of_string a), <- (string_of_list_ascii_of_string b), H. reflexivity. Qed.
Lemma split_at {T} (c : T) a b r s : ~ In c a -> ~ In c b -> a ++ c :: r = b ++ c :: s -> a = b /\ r = s.
Proof.
  revert b. induction a as [|x a IH]; intros [|y b] Ha Hb H; simpl in H.
  - injection H; auto.
  - injection H as E _. exfalso. apply Hb. left. symmetry. exact E.
  - injection H as E _. exfalso. apply Ha. left. exact E.
  - injection H as -> H. destruct (IH b) as [-> ->]; auto; [intros G; apply Ha; right; exact G|intros G; apply Hb; right; exact G].
Qed.

(** ** order *)
Lemma before_iff a b : str_ltb a b = true <-> before a b.
Proof.
  revert b. induction a as [|c a IH]; intros [|d b]; simpl.
  - split; [discriminate|inversion 1].
  - split; [intros _; constructor|reflexivity].
  - split; [discriminate|inversion 1].
  - destruct (N.ltb_spec (N_of_ascii c) (N_of_ascii d)) as [E|E].
    + split; [intros _; apply bf_here; unfold nat_of_ascii; lia|reflexivity].
    + destruct (N.ltb_spec (N_of_ascii d) (N_of_ascii c)) as [E'|E'].
      * split; [discriminate|]. inversion 1; subst; [unfold nat_of_ascii in *; lia|lia].
      * assert (c = d) by (rewrite <- (ascii_N_embedding c), <- (ascii_N_embedding d); f_equal; lia). subst d. rewrite IH. split; [apply bf_next|].
        inversion 1; subst; [lia|assumption].
Qed.

Lemma item_iff a b : item_ltb a b = true <-> listed_before a b.
Proof.
  unfold item_ltb, listed_before. rewrite orb_true_iff, andb_true_iff, Nat.ltb_lt, Nat.eqb_eq, before_iff. reflexivity.
Qed.
Lemma item_asym a b : item_ltb a b = true -> item_ltb b a = false.
Proof.
  intros H. apply not_true_iff_false. intros G. unfold item_ltb in *. rewrite orb_true_iff, andb_true_iff, Nat.ltb_lt, Nat.eqb_eq in *.
  destruct H as [H|[H H']], G as [G|[G G']]; try lia. apply str_ltb_asym in H'. congruence.
Qed.
Lemma item_false a b : item_ltb a b = false <-> length (snd b) < length (snd a) \/ (length (snd b) = length (snd a) /\ str_ltb (fst a) (fst b) = false).
Proof.
  unfold item_ltb. rewrite orb_false_iff, andb_false_iff, Nat.ltb_ge, Nat.eqb_neq. destruct (str_ltb (fst a) (fst b)); split; intros H; try lia; intuition (try discriminate; try lia).
Qed.
Lemma item_trans a b c : item_ltb b a = false -> item_ltb c b = false -> item_ltb c a = false.
Proof.
  rewrite !item_false. intros [H|[H H']] [G|[G G']]; try (left; lia). right. split; [congruence|]. eapply str_ltb_trans_false; eassumption.
Qed.
Lemma item_antisym a b : item_ltb a b = false -> item_ltb b a = false -> fst a = fst b.
Proof. rewrite !item_false. intros [H|[H H']] [G|[G G']]; try lia. apply str_ltb_antisym; assumption. Qed.

Lemma items_sorted l : NoDup (map fst l) -> StronglySorted listed_before (stable_sort item_ltb l).
Proof.
  intros Hn. assert (Hs : StronglySorted (fun a b => item_ltb b a = false) (stable_sort item_ltb l)).
  { apply (sort_sorted item_ltb (fun _ => True)); [intros x y _ _; apply item_asym|intros x y z _ _ _; apply item_trans|apply Forall_forall; auto]. }
  assert (Hn' : NoDup (map fst (stable_sort item_ltb l))) by (eapply Permutation_NoDup; [apply Permutation_map, sort_perm|exact Hn]).
  revert Hn'. induction Hs as [|x l' Hs IH Hx]; intros Hn'; constructor; inversion Hn' as [|? ? Hni Hn2]; subst; [auto|].
  rewrite Forall_forall in *. intros y Hy. apply item_iff. destruct (item_ltb x y) eqn:E; [reflexivity|]. exfalso. apply Hni.
  rewrite (item_antisym x y E (Hx y Hy)). apply in_map, Hy.
Qed.
Lemma sorted_listing_unique l m : NoDup (map fst l) -> Permutation l m -> StronglySorted listed_before l -> StronglySorted listed_before m -> l = m.
Proof.
  intros Hn Hp Hl Hm. assert (W : forall k, StronglySorted listed_before k -> StronglySorted (fun a b => item_ltb b a = false) k).
  { intros k Hk. induction Hk as [|x k Hk IH Hx]; constructor; [exact IH|]. rewrite Forall_forall in *. intros y Hy. apply item_asym, item_iff, Hx, Hy. }
  apply (sorted_perm_unique item_ltb); [exact Hp|apply W, Hl|apply W, Hm|].
  intros x y Hx Hy H1 H2. pose proof (item_antisym x y H1 H2) as E. clear -Hn Hx Hy E.
  induction l as [|z l IH]; [destruct Hx|]. inversion Hn as [|? ? Hni Hn']; subst. destruct Hx as [->|Hx], Hy as [->|Hy]; auto; exfalso; apply Hni.
  - rewrite E. apply in_map, Hy.
  - rewrite <- E. apply in_map, Hx.
Qed.

(** ** texts *)
Lemma concat_listed l : String.concat ", " l = listed l.
Proof. induction l as [|x [|y l] IH]; [reflexivity|reflexivity|]. cbn [String.concat listed] in *. rewrite IH. reflexivity. Qed.
Lemma tuple_tupled l : tuple_text l = tupled l.
Proof.
  unfold tuple_text, tupled. destruct l as [|x [|y l]]; [reflexivity|reflexivity|]. rewrite concat_listed. reflexivity.
Qed.

Lemma digits_only d c : In c (chars (NilEmpty.string_of_uint d)) -> 48 <= nat_of_ascii c <= 57.
Proof. induction d; simpl; intros H; [destruct H|..]; (destruct H as [<-|H]; [cbn; lia|apply IHd, H]). Qed.
Lemma numeral_digits n c : In c (chars (numeral n)) -> 48 <= nat_of_ascii c <= 57.
Proof. apply digits_only. Qed.
Lemma numeral_inj n m : numeral n = numeral m -> n = m.
Proof.
  unfold numeral. intros H. apply (f_equal NilEmpty.uint_of_string) in H. rewrite !NilEmpty.usu in H. injection H as H.
  rewrite <- (Unsigned.of_to n), <- (Unsigned.of_to m), H. reflexivity.
Qed.
Lemma numeral_nonempty n : chars (numeral n) <> [].
Proof.
  intros H. assert (E : numeral n = "") by (apply chars_inj; exact H). assert (D : Nat.to_uint n = Decimal.Nil).
  { unfold numeral in E. apply (f_equal NilEmpty.uint_of_string) in E. rewrite NilEmpty.usu in E. injection E as E. exact E. }
  assert (Z : n = 0) by (rewrite <- (Unsigned.of_to n), D; reflexivity). subst n. discriminate.
Qed.

Lemma lacks_numeral n c : ~ 48 <= nat_of_ascii c <= 57 -> ~ In c (chars (numeral n)).
Proof. intros H G. apply H. exact (numeral_digits _ _ G). Qed.

(** a list of numerals can be read back *)
Lemma listed_numerals_inj : forall l m, l <> [] -> m <> [] -> listed (map numeral l) = listed (map numeral m) -> l = m.
Proof.
  assert (NC : forall n, ~ In ","%char (chars (numeral n))) by (intros n; apply lacks_numeral; cbn; lia).
  induction l as [|x l IH]; intros [|y m] Hl Hm H; try congruence.
  destruct l as [|x' l], m as [|y' m].
  - cbn [map listed] in H. rewrite (numeral_inj _ _ H). reflexivity.
  - exfalso. cbn [map listed] in H. apply (f_equal chars) in H. rewrite chars_app in H. apply (NC x). rewrite H. apply in_or_app. right. left. reflexivity.
  - exfalso. cbn [map listed] in H. apply (f_equal chars) in H. rewrite chars_app in H. apply (NC y). rewrite <- H. apply in_or_app. right. left. reflexivity.
  - cbn [map listed] in H. apply (f_equal chars) in H. rewrite !(chars_app (numeral _)) in H. cbn [append chars app] in H.
    apply split_at in H as [H1 H2]; [|apply NC|apply NC]. injection H2 as H2. apply chars_inj in H1, H2. rewrite (numeral_inj _ _ H1). f_equal.
    apply IH; [discriminate|discriminate|exact H2].
Qed.
Lemma listed_chars l c : In c (chars (listed (map numeral l))) -> 48 <= nat_of_ascii c <= 57 \/ c = ","%char \/ c = " "%char.
Proof.
  induction l as [|x [|y l] IH]; [intros []|intros H; left; apply numeral_digits in H; exact H|].
  cbn [map listed] in *. rewrite !chars_app. intros H. apply in_app_or in H as [H|H]; [left; apply numeral_digits in H; exact H|].
  apply in_app_or in H as [[H|[H|[]]]|H]; auto.
Qed.

(** the inside of a tuple *)
Definition inside (l : list nat) : string := (listed (map numeral l) ++ (if (length l =? 1)%nat then "," else ""))%string.
Lemma inside_inj l m : l <> [] -> m <> [] -> inside l = inside m -> l = m.
Proof.
  intros Hl Hm H. unfold inside in H.
  destruct l as [|x [|x' l]]; [congruence| |]; (destruct m as [|y [|y' m]]; [congruence| |]).
  - cbn [map listed length Nat.eqb] in H. apply (f_equal chars) in H. rewrite !chars_app in H. apply app_inj_tail in H as [H _]. apply chars_inj, numeral_inj in H. subst. reflexivity.
  - exfalso. apply (f_equal chars) in H. rewrite !chars_app in H. cbn [map listed length Nat.eqb chars] in H. rewrite chars_app, app_nil_r in H. cbn [append chars] in H.
    apply split_at in H as [_ H]; [discriminate|apply lacks_numeral; cbn; lia|apply lacks_numeral; cbn; lia].
  - exfalso. apply (f_equal chars) in H. rewrite !chars_app in H. cbn [map listed length Nat.eqb chars] in H. rewrite chars_app, app_nil_r in H. cbn [append chars] in H.
    apply split_at in H as [_ H]; [discriminate|apply lacks_numeral; cbn; lia|apply lacks_numeral; cbn; lia].
  - cbn [length Nat.eqb] in H. apply (f_equal chars) in H. rewrite !chars_app in H. cbn [chars] in H. rewrite !app_nil_r in H. apply chars_inj in H.
    apply listed_numerals_inj; [discriminate|discriminate|exact H].
Qed.
Lemma inside_lacks l : ~ In ")"%char (chars (inside l)).
Proof.
  unfold inside. rewrite chars_app. intros H. apply in_app_or in H as [H|H].
  - apply listed_chars in H as [H|[H|H]]; [cbn in H; lia|discriminate|discriminate].
  - destruct (length l =? 1); [destruct H as [H|[]]; discriminate|destruct H].
Qed.

Lemma entry_chars e r : chars (entry e) ++ r = chars (fst e) ++ "="%char :: "("%char :: chars (inside (snd e)) ++ ")"%char :: r.
Proof.
  unfold entry, tupled, inside. rewrite !chars_app. cbn [chars app]. rewrite <- !app_assoc. cbn [app]. do 3 f_equal. rewrite <- !app_assoc. reflexivity.
Qed.

Definition good_items (l : list (string * list nat)) : Prop := forall k v, In (k, v) l -> lacks "=" k /\ v <> [].
Lemma entry_inj e e' r r' : lacks "=" (fst e) -> lacks "=" (fst e') -> snd e <> [] -> snd e' <> [] -> chars (entry e) ++ r = chars (entry e') ++ r' -> e = e' /\ r = r'.
Proof.
  intros H1 H2 H3 H4 H. rewrite !entry_chars in H. apply split_at in H as [Hk H]; [|exact H1|exact H2]. injection H as H.
  apply split_at in H as [Hv H]; [|apply inside_lacks|apply inside_lacks]. apply chars_inj in Hk, Hv. apply inside_inj in Hv; [|exact H3|exact H4].
  destruct e, e'. cbn [fst snd] in *. subst. auto.
Qed.

Lemma entries_inj : forall l m, good_items l -> good_items m -> chars (listed (map entry l)) ++ [")"%char] = chars (listed (map entry m)) ++ [")"%char] -> l = m.
Proof.
  assert (G0 : forall e l, good_items (e :: l) -> lacks "=" (fst e) /\ snd e <> [] /\ good_items l).
  { intros [k v] l H. destruct (H k v (or_introl eq_refl)) as [H1 H2]. repeat split; auto; destruct (H k0 v0 (or_intror H0)); assumption. }
  induction l as [|e l IH]; intros m Hl Hm H.
  - destruct m as [|e' m]; [reflexivity|]. exfalso. destruct (G0 _ _ Hm) as (H1 & _ & _).
    assert (L : 3 <= length (chars (listed (map entry (e' :: m))))).
    { cbn [map listed]. destruct (map entry m); rewrite ?chars_app, ?app_length; pose proof (entry_chars e' []) as E; rewrite app_nil_r in E; rewrite E, app_length; cbn [length]; rewrite app_length; cbn [length]; lia. }
    apply (f_equal (@length _)) in H. rewrite app_length in H. rewrite (app_length (chars (listed (map entry (e' :: m))))) in H. cbn [map listed chars length app] in H, L. lia.
  - destruct m as [|e' m].
    + exfalso. assert (L : 3 <= length (chars (listed (map entry (e :: l))))).
      { cbn [map listed]. destruct (map entry l); rewrite ?chars_app, ?app_length; pose proof (entry_chars e []) as E; rewrite app_nil_r in E; rewrite E, app_length; cbn [length]; rewrite app_length; cbn [length]; lia. }
      apply (f_equal (@length _)) in H. rewrite app_length in H. cbn [map listed chars length app] in H, L. lia.
    + destruct (G0 _ _ Hl) as (H1 & H2 & H3), (G0 _ _ Hm) as (H4 & H5 & H6).
      assert (R : forall e l, chars (listed (map entry (e :: l))) ++ [")"%char] = chars (entry e) ++ match l with [] => [")"%char] | _ => ","%char :: " "%char :: chars (listed (map entry l)) ++ [")"%char] end).
      { intros x [|x' k]; cbn [map listed]; [reflexivity|]. rewrite !chars_app. cbn [chars append app]. rewrite <- !app_assoc. reflexivity. }
      rewrite !R in H. apply entry_inj in H as [-> H]; try assumption. f_equal.
      destruct l as [|x l], m as [|y m]; try discriminate; [reflexivity|]. injection H as H. apply IH; assumption.
Qed.

(** ** tags *)
Lemma size_shown_iff t n : NoDup (map fst (t_dict t)) -> (size_shown t n <-> n = idx_len (t_indices t)).
Proof.
  intros Hn. unfold size_shown, t_indices, reads. destruct (dget "indices" (t_dict t)) as [l|] eqn:E; simpl.
  - apply dget_In in E. split.
    + intros [[H _]|(m & Hm & ->)]; [exfalso; exact (H l E)|]. f_equal. apply (In_dget _ _ _ Hn) in E. apply (In_dget _ _ _ Hn) in Hm. congruence.
    + intros ->. right. eauto.
  - split.
    + intros [[_ H]|(m & Hm & _)]; [exact H|]. exfalso. apply (In_dget _ _ _ Hn) in Hm. congruence.
    + intros ->. left. split; [|reflexivity]. intros l Hl. apply (In_dget _ _ _ Hn) in Hl. congruence.
Qed.

Lemma repr_value t : tags_repr t = match dget "items" (t_dict t) with None => Ok (text_of (idx_len (t_indices t)) (stable_sort item_ltb (t_dict t))) | Some _ => Err TypeError end.
Proof.
  unfold tags_repr, method, shadows, dmem. destruct (dget "items" (t_dict t)); [reflexivity|]. cbn [negb check bind]. unfold text_of. rewrite concat_listed.
  f_equal. do 4 f_equal. f_equal. apply map_ext. intros e. unfold entry. rewrite tuple_tupled. reflexivity.
Qed.

Lemma no_items t : NoDup (map fst (t_dict t)) -> (dget "items" (t_dict t) = None <-> forall l, ~ reads t "items" l).
Proof.
  intros Hn. unfold reads. split.
  - intros H l Hl. apply (In_dget _ _ _ Hn) in Hl. congruence.
  - intros H. destruct (dget "items" (t_dict t)) as [l|] eqn:E; [|reflexivity]. exfalso. exact (H l (dget_In _ _ _ E)).
Qed.

Lemma repr_text t s : tags_valid t ->
  (tags_repr t = Ok s <-> (forall l, ~ reads t "items" l) /\ exists n items, size_shown t n /\ Permutation items (t_dict t) /\ StronglySorted listed_before items /\ s = text_of n items).
Proof.
  intros Hv. pose proof (tv_unique _ Hv) as Hn. rewrite repr_value, <- no_items by exact Hn. destruct (dget "items" (t_dict t)) eqn:E.
  - split; [discriminate|intros [H _]; discriminate].
  - split.
    + intros H. injection H as <-. split; [reflexivity|]. eexists. eexists. split; [apply size_shown_iff; [exact Hn|reflexivity]|].
      split; [symmetry; apply sort_perm|]. split; [apply items_sorted, Hn|reflexivity].
    + intros (_ & n & items & Hs & Hp & Ho & ->). f_equal. apply size_shown_iff in Hs; [|exact Hn]. subst n. f_equal.
      apply sorted_listing_unique; [|transitivity (t_dict t); [symmetry; apply sort_perm|symmetry; exact Hp]|apply items_sorted, Hn|exact Ho].
      eapply Permutation_NoDup; [apply Permutation_map, sort_perm|exact Hn].
Qed.

Lemma repr_fails t e : tags_valid t -> (tags_repr t = Err e <-> e = TypeError /\ exists l, reads t "items" l).
Proof.
  intros Hv. pose proof (tv_unique _ Hv) as Hn. rewrite repr_value. destruct (dget "items" (t_dict t)) as [l|] eqn:E.
  - split; [intros H; injection H as <-; split; [reflexivity|exists l; apply dget_In, E]|intros [-> _]; reflexivity].
  - split; [discriminate|]. intros [_ (l & Hl)]. exfalso. exact (proj1 (no_items t Hn) E l Hl).
Qed.

Lemma text_inj n m l k : good_items l -> good_items k -> text_of n l = text_of m k -> n = m /\ l = k.
Proof.
  intros Hl Hk H. unfold text_of in H. apply (f_equal chars) in H. rewrite !chars_app in H. apply app_inv_head in H.
  cbn [chars app] in H. apply split_at in H as [H1 H2]; [|apply lacks_numeral; cbn; lia|apply lacks_numeral; cbn; lia]. injection H2 as H2.
  split; [apply numeral_inj, chars_inj, H1|]. apply entries_inj; assumption.
Qed.

Lemma repr_identifies a b ra rb : tags_valid a -> tags_valid b ->
  (forall k l, reads a k l \/ reads b k l -> lacks "=" k /\ k <> "indices"%string) ->
  tags_repr a = Ok ra -> tags_repr b = Ok rb ->
  (ra = rb <-> t_n a = t_n b /\ forall k l, reads a k l <-> reads b k l).
Proof.
  intros Ha Hb Hk Ra Rb. apply repr_text in Ra as (_ & n & la & Sa & Pa & Oa & ->); [|exact Ha]. apply repr_text in Rb as (_ & m & lb & Sb & Pb & Ob & ->); [|exact Hb].
  assert (Ga : good_items la).
  { intros k v H. apply (Permutation_in _ Pa) in H. split; [apply (Hk k v (or_introl H))|apply (tv_nonempty _ Ha k v H)]. }
  assert (Gb : good_items lb).
  { intros k v H. apply (Permutation_in _ Pb) in H. split; [apply (Hk k v (or_intror H))|apply (tv_nonempty _ Hb k v H)]. }
  assert (En : n = t_n a).
  { destruct Sa as [[_ ->]|(l & Hl & _)]; [reflexivity|]. exfalso. apply (Hk _ _ (or_introl Hl)). reflexivity. }
  assert (Em : m = t_n b).
  { destruct Sb as [[_ ->]|(l & Hl & _)]; [reflexivity|]. exfalso. apply (Hk _ _ (or_intror Hl)). reflexivity. }
  split.
  - intros H. apply text_inj in H as [H ->]; try assumption. split; [congruence|]. intros k l. unfold reads.
    split; intros G; [apply (Permutation_in _ Pb), (Permutation_in _ (Permutation_sym Pa)), G|apply (Permutation_in _ Pa), (Permutation_in _ (Permutation_sym Pb)), G].
  - intros [H1 H2]. f_equal; [congruence|]. assert (P : Permutation (t_dict a) (t_dict b)).
    { apply NoDup_Permutation; [eapply NoDup_map_inv, (tv_unique _ Ha)|eapply NoDup_map_inv, (tv_unique _ Hb)|]. intros [k l]. apply H2. }
    apply sorted_listing_unique; [|transitivity (t_dict a); [exact Pa|transitivity (t_dict b); [exact P|symmetry; exact Pb]]|exact Oa|exact Ob].
    eapply Permutation_NoDup; [apply Permutation_map; symmetry; exact Pa|exact (tv_unique _ Ha)].
Qed.

(** ** signal sets *)
Definition plain_text (s : string) : Prop := ~ In "%"%char (chars s).
Lemma percent_plain s r arg : plain_text s -> percent (s ++ r)%string arg = (x <- percent r arg ;; Ok (s ++ x)%string).
Proof.
  intros H. induction s as [|c s IH].
  - simpl. destruct (percent r arg); reflexivity.
  - cbn [append percent]. destruct (Ascii.eqb_spec c "%"%char) as [->|D]; [exfalso; apply H; left; reflexivity|].
    rewrite IH by (intros G; apply H; right; exact G). destruct (percent r arg); reflexivity.
Qed.
Lemma escape_tame q s : In (nat_of_ascii q) [34; 39] -> tame s -> escape q s = s.
Proof.
  intros Hq H. induction s as [|c s IH]; [reflexivity|]. cbn [escape]. rewrite IH by (intros d Hd; apply H; right; exact Hd).
  destruct (H c (or_introl eq_refl)) as [_ Hc]. clear H. rename Hc into H. destruct (Ascii.eqb_spec c "\"%char) as [->|_]; [exfalso; apply H; vm_compute; auto|].
  destruct (Ascii.eqb_spec c q) as [->|_]; [exfalso; apply H; destruct Hq as [<-|[<-|[]]]; simpl; auto|]. reflexivity.
Qed.
Lemma has_iff c s : has c s = true <-> In c (chars s).
Proof. unfold has. rewrite existsb_exists. split; [intros (d & Hd & E); apply Ascii.eqb_eq in E; subst; exact Hd|intros H; exists c; split; [exact H|apply Ascii.eqb_refl]]. Qed.
Lemma str_repr_tame s : tame s -> str_repr s = ("'" ++ s ++ "'")%string.
Proof.
  intros H. unfold str_repr. replace (has squote s) with false; [cbn [andb]; rewrite escape_tame; [reflexivity|vm_compute; auto|exact H]|].
  symmetry. apply not_true_iff_false. intros G. apply has_iff, H in G. destruct G as [_ G]. apply G. vm_compute. auto.
Qed.

Lemma listed_plain l : (forall x, In x l -> plain_text x) -> plain_text (listed l).
Proof.
  intros H. induction l as [|x [|y l] IH]; [intros []|apply H; left; reflexivity|]. unfold plain_text in *. cbn [listed] in *. rewrite !chars_app.
  intros G. apply in_app_or in G as [G|G]; [exact (H x (or_introl eq_refl) G)|]. apply in_app_or in G as [[G|[G|[]]]|G]; try discriminate.
  apply IH; [intros z Hz; apply H; right; exact Hz|exact G].
Qed.
Lemma numeral_plain n : plain_text (numeral n). Proof. apply lacks_numeral. cbn. lia. Qed.
Lemma app_plain a b : plain_text a -> plain_text b -> plain_text (a ++ b).
Proof. unfold plain_text. rewrite chars_app. intros Ha Hb G. apply in_app_or in G as [G|G]; auto. Qed.
Lemma tupled_plain l : plain_text (tupled l).
Proof.
  assert (C : forall s, has "%"%char s = false -> plain_text s) by (intros s H G; apply has_iff in G; congruence).
  unfold tupled. apply app_plain; [apply C; reflexivity|]. apply app_plain; [apply listed_plain; intros x Hx; apply in_map_iff in Hx as (n & <- & _); apply numeral_plain|].
  apply app_plain; [destruct (length l =? 1); apply C; reflexivity|apply C; reflexivity].
Qed.

Lemma ascii_nat c n : nat_of_ascii c = n -> c = ascii_of_nat n.
Proof. intros <-. symmetry. apply ascii_nat_embedding. Qed.
Lemma escape_body q s : body q s (escape q s).
Proof.
  induction s as [|c s IH]; [constructor|]. cbn [escape]. destruct (Ascii.eqb_spec c "\"%char) as [->|D]; [apply bd_marked; auto|].
  destruct (Ascii.eqb_spec c q) as [->|D']; cbn [orb]; [apply bd_marked; auto|]. apply bd_plain; [|exact D'|exact IH].
  intros G. apply D. exact (ascii_nat _ _ G).
Qed.
Lemma body_plain q s u : nat_of_ascii q <> 37 -> body q s u -> plain_text s -> plain_text u.
Proof.
  intros Hq H. induction H as [|c s t H1 H2 H IH|c b s t H1 H2 H IH]; intros P; [exact P| |]; unfold plain_text in *; cbn [chars] in *.
  - intros [G|G]; [apply P; left; exact G|revert G; apply IH; intros G; apply P; right; exact G].
  - intros [G|[G|G]]; [subst b; discriminate H2|apply P; left; exact G|revert G; apply IH; intros G; apply P; right; exact G].
Qed.
Lemma str_repr_literal s : literal s (str_repr s).
Proof.
  unfold str_repr. exists (if has squote s && negb (has dquote s) then dquote else squote). eexists. split; [reflexivity|]. split; [apply escape_body|].
  destruct (has squote s) eqn:E1, (has dquote s) eqn:E2; cbn [andb negb].
  - right. split; [reflexivity|]. right. exists dquote. split; [apply has_iff; exact E2|reflexivity].
  - left. split; [reflexivity|]. split; [exists squote; split; [apply has_iff; exact E1|reflexivity]|]. intros c Hc G. apply ascii_nat in G. subst c.
    apply has_iff in Hc. change (has dquote s = true) in Hc. congruence.
  - right. split; [reflexivity|]. right. exists dquote. split; [apply has_iff; exact E2|reflexivity].
  - right. split; [reflexivity|]. left. intros c Hc G. apply ascii_nat in G. subst c. apply has_iff in Hc. change (has squote s = true) in Hc. congruence.
Qed.
Lemma literal_plain s t : literal s t -> plain_text s -> plain_text t.
Proof.
  intros (q & u & -> & Hb & Hq) P. assert (Q : nat_of_ascii q <> 37) by (destruct Hq as [[-> _]|[-> _]]; discriminate).
  apply (body_plain _ _ _ Q) in Hb; [|exact P]. unfold plain_text in *. cbn [chars]. rewrite chars_app. intros [G|G]; [subst q; apply Q; reflexivity|].
  apply in_app_or in G as [G|[G|[]]]; [exact (Hb G)|subst q; apply Q; reflexivity].
Qed.

Section Sets.
Context {A : Arith} {V K : Type} (show : num A -> string).
Notation run_text := (run_text show).
Lemma set_repr_plain (X : @sigset A V K) : (forall k l, reads (ss_tags X) k l -> tame k) ->
  set_repr show X = Ok (set_text show X).
Proof.
  intros H. assert (C : forall s, has "%"%char s = false -> plain_text s) by (intros s G G'; apply has_iff in G'; congruence).
  assert (E : tags_str (ss_tags X) = ("{" ++ listed (map pair_text (t_dict (ss_tags X))) ++ "}")%string).
  { unfold tags_str. rewrite concat_listed. do 3 f_equal. apply map_ext_in. intros [k l] Hin. unfold pair_text. cbn [fst snd]. rewrite tuple_tupled, str_repr_tame by exact (H k l Hin).
    apply chars_inj. rewrite !chars_app. cbn [chars app]. rewrite <- !app_assoc. reflexivity. }
  assert (P : plain_text (tags_str (ss_tags X))).
  { rewrite E. apply app_plain; [apply C; reflexivity|]. apply app_plain; [|apply C; reflexivity]. apply listed_plain. intros x Hx. apply in_map_iff in Hx as ([k l] & <- & Hin). unfold pair_text. cbn [fst snd].
    apply app_plain; [apply C; reflexivity|]. apply app_plain; [intros G; apply (H k l Hin) in G; destruct G as [_ G]; apply G; vm_compute; auto|]. apply app_plain; [apply C; reflexivity|apply tupled_plain]. }
  unfold set_repr, set_text. rewrite percent_plain by (apply C; reflexivity). rewrite percent_plain by exact P. cbn [percent Ascii.eqb Bool.eqb bind]. 
  rewrite concat_listed. change (map (sync_repr show) (ss_signals X)) with (map run_text (ss_signals X)). f_equal. rewrite E.
  apply chars_inj. rewrite !chars_app. cbn [chars app]. rewrite <- !app_assoc, ?chars_app. reflexivity.
Qed.
Lemma set_repr_text (X : @sigset A V K) : (forall k l, reads (ss_tags X) k l -> printable k) ->
  exists texts, Forall2 tag_text (t_dict (ss_tags X)) texts /\
  set_repr show X = Ok ("SignalSet({" ++ listed texts ++ "}, " ++ listed (map run_text (ss_signals X)) ++ ")")%string.
Proof.
  intros H. assert (C : forall s, has "%"%char s = false -> plain_text s) by (intros s G G'; apply has_iff in G'; congruence).
  exists (map (fun e => str_repr (fst e) ++ ": " ++ tupled (snd e))%string (t_dict (ss_tags X))). split.
  { induction (t_dict (ss_tags X)) as [|e l IH]; constructor; [|exact IH]. eexists. split; [apply str_repr_literal|reflexivity]. }
  assert (E : tags_str (ss_tags X) = ("{" ++ listed (map (fun e => str_repr (fst e) ++ ": " ++ tupled (snd e))%string (t_dict (ss_tags X))) ++ "}")%string).
  { unfold tags_str. rewrite concat_listed. do 3 f_equal. apply map_ext_in. intros [k l] Hin. cbn [fst snd]. rewrite tuple_tupled. reflexivity. }
  assert (P : plain_text (tags_str (ss_tags X))).
  { rewrite E. apply app_plain; [apply C; reflexivity|]. apply app_plain; [|apply C; reflexivity]. apply listed_plain. intros x Hx. apply in_map_iff in Hx as ([k l] & <- & Hin). cbn [fst snd].
    apply app_plain; [eapply literal_plain; [apply str_repr_literal|]|apply app_plain; [apply C; reflexivity|apply tupled_plain]].
    intros G. apply (H k l Hin) in G. destruct G as [_ G]. apply G. reflexivity. }
  unfold set_repr. rewrite percent_plain by (apply C; reflexivity). rewrite percent_plain by exact P. cbn [percent Ascii.eqb Bool.eqb bind].
  rewrite concat_listed. change (map (sync_repr show) (ss_signals X)) with (map run_text (ss_signals X)). f_equal. rewrite E.
  apply chars_inj. rewrite !chars_app. cbn [chars app]. rewrite <- !app_assoc, ?chars_app. reflexivity.
Qed.
End Sets.
Lemma literal_functional s t t' : literal s t -> literal s t' -> t = t'.
Proof.
  assert (B : forall q s t t', body q s t -> body q s t' -> t = t').
  { intros q s0 t0 t0' H. revert t0'. induction H as [|c s0 t0 H1 H2 H IH|c b s0 t0 H1 H2 H IH]; intros t0' H'; inversion H'; subst; try tauto.
    - f_equal. apply IH. assumption.
    - f_equal; [rewrite (ascii_nat _ _ H2); symmetry; apply ascii_nat; assumption|]. f_equal. apply IH. assumption. }
  intros (q & u & -> & Hb & Hq) (q' & u' & -> & Hb' & Hq').
  assert (E : q = q').
  { destruct Hq as [(H1 & (c & Hc & Ec) & H2)|(H1 & [H2|(c & Hc & Ec)])], Hq' as [(G1 & (d & Hd & Ed) & G2)|(G1 & [G2|(d & Hd & Ed)])];
    try (rewrite (ascii_nat _ _ H1), (ascii_nat _ _ G1); reflexivity); exfalso; first [exact (H2 _ Hd Ed)|exact (H2 _ Hc Ec)|exact (G2 _ Hc Ec)|exact (G2 _ Hd Ed)]. }
  subst q'. f_equal. f_equal. exact (B _ _ _ _ Hb Hb').
Qed.

