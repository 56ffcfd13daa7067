(** The printed forms of SetTextModel.v are those of SpecSetText.v. *)
From Coq Require Import QArith.
From Verif Require Import Base BaseLemmas Arith TagsModel SpecTags TagsProofs SyncModel SetModel ReprModel SpecRepr ReprProofs
  NumTextModel SpecNumText NumTextProofs DateText NumTextUnique SetTextModel SpecSetText.
Open Scope nat_scope. Local Open Scope string_scope. Local Open Scope list_scope. Local Open Scope nat_scope.

Lemma text_assoc a b c : ((a ++ b) ++ c = a ++ b ++ c)%string.
Proof. induction a as [|x a IH]; [reflexivity|]. cbn. rewrite IH. reflexivity. Qed.
Lemma text_length a b : String.length (a ++ b) = String.length a + String.length b.
Proof. induction a as [|x a IH]; [reflexivity|]. cbn. rewrite IH. reflexivity. Qed.
Lemma concat_lines l : String.concat nl l = in_lines l.
Proof. induction l as [|x [|y l] IH]; [reflexivity|reflexivity|]. cbn [String.concat in_lines]. change newline with nl. f_equal. f_equal. exact IH. Qed.

Lemma lines_cons x l : l <> [] -> in_lines (x :: l) = (x ++ newline ++ in_lines l)%string.
Proof. destruct l; [congruence|reflexivity]. Qed.

(** ** justification *)
Lemma chars_of_length c n : String.length (chars_of c n) = n.
Proof. induction n as [|n IH]; cbn; [reflexivity|rewrite IH; reflexivity]. Qed.
Lemma chars_of_spaces n c : In c (list_ascii_of_string (chars_of " " n)) -> nat_of_ascii c = 32.
Proof. induction n as [|n IH]; cbn; [tauto|]. intros [<-|H]; [reflexivity|auto]. Qed.
Lemma spaces_only s : (forall c, In c (list_ascii_of_string s) -> nat_of_ascii c = 32) -> s = chars_of " " (String.length s).
Proof.
  induction s as [|c s IH]; intros H; [reflexivity|]. cbn. f_equal; [|apply IH; intros d Hd; apply H; right; exact Hd].
  rewrite <- (ascii_nat_embedding c), (H c) by (left; reflexivity). reflexivity.
Qed.
Lemma right_iff n s t : right_of n s t <-> rjust n s = t.
Proof.
  split.
  - intros (sp & -> & Hs & L). unfold rjust. rewrite (spaces_only sp Hs), L. reflexivity.
  - intros <-. exists (chars_of " " (n - String.length s)). split; [reflexivity|]. split; [intros c; apply chars_of_spaces|apply chars_of_length].
Qed.
Lemma rjust_long n s : n <= String.length s -> rjust n s = s.
Proof. intros H. unfold rjust. replace (n - String.length s) with 0 by lia. reflexivity. Qed.
Lemma rjust_twice n s : rjust n (rjust n s) = rjust n s.
Proof. apply rjust_long. unfold rjust. rewrite text_length, chars_of_length. lia. Qed.
Lemma digits_text_length l : String.length (digits_text l) = length l.
Proof. induction l as [|d l IH]; [reflexivity|]. unfold digits_text in *. cbn [map string_of_list_ascii String.length length]. f_equal. exact IH. Qed.
Lemma instant_length t s : instant t s -> String.length s = 19.
Proof.
  intros (n & y & m & d & h & mi & se & ly & lm & ld & lh & lmi & ls & _ & _ & _ & _ & _ & _ & _ & Ly & L2 & ->). rewrite Forall_forall in L2.
  rewrite !text_length, !digits_text_length, Ly, !L2 by (cbn; tauto). reflexivity.
Qed.

(** ** the rows of the tags *)
Fixpoint wrapr (cur : list string) (items : list string) : list (list string) :=
  match items with
  | [] => [cur]
  | e :: r => if (45 <? taken cur + 2 + String.length e)%nat then cur :: wrapr [e] r else wrapr (cur ++ [e]) r
  end.
Lemma row_length row : String.length (row_text row) = taken row.
Proof. induction row as [|e r IH]; [reflexivity|]. cbn [row_text taken fold_right]. rewrite !text_length, IH. cbn [String.length]. unfold taken. lia. Qed.
Lemma row_snoc row e : row_text (row ++ [e]) = (row_text row ++ e ++ ", ")%string.
Proof. induction row as [|x r IH]; [cbn; rewrite ?text_end; reflexivity|]. cbn [app row_text]. rewrite IH, !text_assoc. reflexivity. Qed.
Lemma taken_snoc row e : taken (row ++ [e]) = taken row + String.length e + 2.
Proof. rewrite <- !row_length, row_snoc, !text_length. cbn [String.length]. lia. Qed.
Lemma taken_app a b : taken (a ++ b) = taken a + taken b.
Proof. induction a as [|x a IH]; [reflexivity|]. cbn [app taken fold_right]. unfold taken in *. rewrite IH. lia. Qed.
Lemma wrap_rows items : forall cur, wrap (row_text cur) items = map row_text (wrapr cur items).
Proof.
  induction items as [|e r IH]; intros cur; [reflexivity|]. cbn [wrap wrapr]. rewrite row_length. change (52 - 7) with 45.
  destruct (45 <? taken cur + 2 + String.length e).
  - cbn [map]. f_equal. rewrite <- IH. cbn [row_text]. rewrite text_end. reflexivity.
  - rewrite <- IH, row_snoc. reflexivity.
Qed.
Lemma wrapr_concat items : forall cur, concat (wrapr cur items) = cur ++ items.
Proof.
  induction items as [|e r IH]; intros cur; [cbn; reflexivity|]. cbn [wrapr]. destruct (45 <? taken cur + 2 + String.length e).
  - cbn [concat]. rewrite IH. reflexivity.
  - rewrite IH, <- app_assoc. reflexivity.
Qed.
Lemma wrapr_head items : forall c cur, exists next rows, wrapr (c :: cur) items = (c :: next) :: rows.
Proof.
  induction items as [|e r IH]; intros c cur; [eexists; eexists; reflexivity|]. cbn [wrapr]. destruct (45 <? taken (c :: cur) + 2 + String.length e); [eexists; eexists; reflexivity|]. apply (IH c (cur ++ [e])).
Qed.
Lemma wrapr_filled items : forall cur, taken cur <= 45 \/ length cur = 1 -> filled (wrapr cur items).
Proof.
  induction items as [|e r IH]; intros cur H; [constructor; exact H|]. cbn [wrapr]. destruct (Nat.ltb_spec 45 (taken cur + 2 + String.length e)) as [L|L].
  - specialize (IH [e] (or_intror eq_refl)). destruct (wrapr_head r e []) as (next & rows & E). rewrite E in *. constructor; [exact H|lia|exact IH].
  - apply IH. left. rewrite taken_snoc. lia.
Qed.
Lemma wrapr_first items : forall cur, taken cur <= 45 -> taken (hd [] (wrapr cur items)) <= 45.
Proof.
  induction items as [|e r IH]; intros cur H; [exact H|]. cbn [wrapr]. destruct (Nat.ltb_spec 45 (taken cur + 2 + String.length e)); [exact H|]. apply IH. rewrite taken_snoc. lia.
Qed.
Lemma wrapr_unique rest : forall more cur, filled ((cur ++ more) :: rest) -> cur <> [] \/ taken (cur ++ more) <= 45 ->
  wrapr cur (more ++ concat rest) = (cur ++ more) :: rest.
Proof.
  induction rest as [|row rest IHr].
  - induction more as [|e more IH]; intros cur F C.
    + cbn. rewrite app_nil_r. reflexivity.
    + assert (Fit : taken (cur ++ e :: more) <= 45). { destruct C as [C|C]; [|exact C]. inversion F as [r' [T|T]|]; subst; [exact T|]. rewrite app_length in T. cbn in T. destruct cur; [congruence|cbn in T; lia]. }
      cbn [app wrapr]. destruct (Nat.ltb_spec 45 (taken cur + 2 + String.length e)) as [L|L].
      * exfalso. rewrite taken_app in Fit. cbn in Fit. lia.
      * replace (cur ++ e :: more) with ((cur ++ [e]) ++ more) in * by (rewrite <- app_assoc; reflexivity). apply IH; [exact F|right; exact Fit].
  - induction more as [|e more IH]; intros cur F C.
    + rewrite app_nil_r in *. inversion F as [|r' e next rows T G F' E1]; subst. cbn [concat app wrapr]. destruct (Nat.ltb_spec 45 (taken cur + 2 + String.length e)) as [L|L]; [|lia].
      f_equal. apply (IHr next [e]); [exact F'|left; discriminate].
    + assert (Fit : taken (cur ++ e :: more) <= 45). { destruct C as [C|C]; [|exact C]. inversion F as [|r' e' next rows [T|T] G F' E1]; subst; [exact T|]. rewrite app_length in T. cbn in T. destruct cur; [congruence|cbn in T; lia]. }
      cbn [app wrapr]. destruct (Nat.ltb_spec 45 (taken cur + 2 + String.length e)) as [L|L].
      * exfalso. rewrite taken_app in Fit. cbn in Fit. lia.
      * replace (cur ++ e :: more) with ((cur ++ [e]) ++ more) in * by (rewrite <- app_assoc; reflexivity). apply IH; [exact F|right; exact Fit].
Qed.
Lemma filled_unique rows : filled rows -> taken (hd [] rows) <= 45 -> rows = wrapr [] (concat rows).
Proof. intros F T. destruct rows as [|row rest]; [inversion F|]. symmetry. apply (wrapr_unique rest row []); [exact F|right; exact T]. Qed.

Lemma substring_prefix a b : String.substring 0 (String.length a) (a ++ b) = a.
Proof. induction a as [|c a IH]; [destruct b; reflexivity|]. cbn. rewrite IH. reflexivity. Qed.
Lemma cut2_end s : cut2 (s ++ ", ") = s.
Proof. unfold cut2. rewrite text_length. cbn [String.length]. rewrite Nat.add_sub. apply substring_prefix. Qed.
Lemma row_listed row : row <> [] -> row_text row = (listed row ++ ", ")%string.
Proof.
  induction row as [|x [|y r] IH]; intros H; [congruence|cbn; rewrite ?text_end; reflexivity|]. change (row_text (x :: y :: r)) with (x ++ ", " ++ row_text (y :: r))%string.
  rewrite IH by discriminate. change (listed (x :: y :: r)) with (x ++ ", " ++ listed (y :: r))%string. rewrite !text_assoc. reflexivity.
Qed.
Lemma rows_joined rows : last rows [] <> [] -> String.concat (nl ++ chars_of " " 7) (map row_text rows) = (rows_text rows ++ ", ")%string.
Proof.
  induction rows as [|x [|y r] IH]; intros H; [cbn in H; congruence|apply row_listed; exact H|].
  change (map row_text (x :: y :: r)) with (row_text x :: row_text y :: map row_text r). change (String.concat (nl ++ chars_of " " 7) (row_text x :: row_text y :: map row_text r)) with
   (row_text x ++ (nl ++ chars_of " " 7) ++ String.concat (nl ++ chars_of " " 7) (map row_text (y :: r)))%string.
  rewrite IH by exact H. change (rows_text (x :: y :: r)) with (row_text x ++ newline ++ "       " ++ rows_text (y :: r))%string. rewrite !text_assoc. reflexivity.
Qed.
Lemma wrapr_last items : forall cur, cur <> [] \/ items <> [] -> last (wrapr cur items) [] <> [].
Proof.
  induction items as [|e r IH]; intros cur H; [cbn; tauto|]. cbn [wrapr]. destruct (45 <? taken cur + 2 + String.length e).
  - destruct (wrapr_head r e []) as (next & rows & E). assert (Q : [e] <> [] \/ r <> []) by (left; discriminate). specialize (IH [e] Q). rewrite E in *. exact IH.
  - apply IH. left. destruct cur; discriminate.
Qed.
Lemma content_rows items : cut2 (String.concat (nl ++ chars_of " " 7) (wrap "" items)) = rows_text (wrapr [] items).
Proof.
  change ""%string with (row_text []). rewrite wrap_rows. destruct items as [|e r]; [reflexivity|]. rewrite rows_joined by (apply wrapr_last; right; discriminate). apply cut2_end.
Qed.

Section Text.
Context {A : Arith} {V K : Type} (val : num A -> Q).

Lemma approx_iff p x t : (1 <= p)%Z -> (approx p x t <-> gtext p x = t).
Proof. intros H. rewrite gtext_iff by exact H. reflexivity. Qed.
Lemma clock_iff x t : clock x t <-> date x = Ok t.
Proof. rewrite date_ok. reflexivity. Qed.
Lemma no_clock_iff x e : date x = Err e <-> e = ValueError /\ no_clock x.
Proof. apply date_err. Qed.

Lemma row_iff (s : sync A V K) t : run_row val s = Ok t <-> row_of val s t.
Proof.
  unfold run_row, row_of. split.
  - intros H. apply bind_ok in H as (a & Ha & H). apply bind_ok in H as (stop & Hs & H). apply bind_ok in H as (b & Hb & H). injection H as <-.
    exists stop, (gtext 5 (val (s_rate s))), (rjust 10 (gtext 5 (val (s_rate s)))), a, b.
    split; [exact Hs|]. split; [apply approx_iff; [lia|reflexivity]|]. split; [apply right_iff; reflexivity|]. apply clock_iff in Ha, Hb. split; [exact Ha|]. split; [exact Hb|].
    destruct Ha as (na & _ & Ia), Hb as (nb & _ & Ib). apply instant_length in Ia, Ib. cbn [rjusts sizes titles rjusts combine map fst snd]. unfold rjusts, sizes, titles, rjusts. cbn [combine map fst snd].
    change (String.length (rjust 10 "sampling")) with 10. change (String.length (rjust 19 "start")) with 19. change (String.length (rjust 19 "stop")) with 19.
    rewrite rjust_twice, (rjust_long 19 a), (rjust_long 19 b) by lia. cbn [String.concat]. reflexivity.
  - intros (stop & rate & r & a & b & Hs & Hr & Hj & Ha & Hb & ->). pose proof Ha as Ha'. pose proof Hb as Hb'. apply clock_iff in Ha', Hb'. rewrite Ha', Hs. cbn [bind]. rewrite Hb'. cbn [bind].
    apply approx_iff in Hr; [|lia]. apply right_iff in Hj. subst rate r. f_equal.
    destruct Ha as (na & _ & Ia), Hb as (nb & _ & Ib). apply instant_length in Ia, Ib. unfold rjusts, sizes, titles, rjusts. cbn [combine map fst snd].
    change (String.length (rjust 10 "sampling")) with 10. change (String.length (rjust 19 "start")) with 19. change (String.length (rjust 19 "stop")) with 19.
    rewrite rjust_twice, (rjust_long 19 a), (rjust_long 19 b) by lia. reflexivity.
Qed.
Lemma row_fails (s : sync A V K) e : run_row val s = Err e <-> unprintable val s e.
Proof.
  unfold run_row, unprintable. destruct (date (val (s_start s))) as [a|x] eqn:Ea; cbn [bind].
  - assert (Ca : clock (val (s_start s)) a) by (apply clock_iff; exact Ea).
    assert (Na : ~ no_clock (val (s_start s))) by (intros N; assert (Q : date (val (s_start s)) = Err ValueError) by (apply no_clock_iff; auto); congruence).
    destruct (s_stop s) as [stop|x] eqn:Es; cbn [bind].
    + destruct (date (val stop)) as [b|x] eqn:Eb; cbn [bind].
      * split; [discriminate|]. intros [[_ N]|[(a' & _ & N)|(_ & a' & st & _ & N & N')]]; [tauto|discriminate|]. injection N as <-. assert (Q : date (val stop) = Err ValueError) by (apply no_clock_iff; auto). congruence.
      * apply no_clock_iff in Eb as [-> Nb]. split; [intros H; injection H as <-; right; right; split; [reflexivity|]; exists a, stop; auto|]. intros [[-> _]|[(a' & _ & N)|(-> & _)]]; [reflexivity|discriminate|reflexivity].
    + split; [intros H; injection H as <-; right; left; exists a; auto|]. intros [[_ N]|[(a' & _ & N)|(_ & a' & st & _ & N & _)]]; [tauto|congruence|discriminate].
  - apply no_clock_iff in Ea as [-> Na]. assert (Nc : forall a, ~ clock (val (s_start s)) a).
    { intros a Ca. apply clock_iff in Ca. assert (Q : date (val (s_start s)) = Err ValueError) by (apply no_clock_iff; auto). congruence. }
    split; [intros H; injection H as <-; left; auto|]. intros [[-> _]|[(a' & Ca & _)|(_ & a' & st & Ca & _)]]; [reflexivity|destruct (Nc _ Ca)|destruct (Nc _ Ca)].
Qed.

Lemma mapM_first {B C} (f : B -> res C) l e : mapM f l = Err e <-> exists l1 x l2, l = l1 ++ x :: l2 /\ (forall y, In y l1 -> exists z, f y = Ok z) /\ f x = Err e.
Proof.
  induction l as [|b l IH]; cbn [mapM]; [split; [discriminate|intros ([|? ?] & x & l2 & E & _); discriminate]|].
  destruct (f b) as [c|x] eqn:Eb; cbn [bind].
  - destruct (mapM f l) as [r|x] eqn:El; cbn [bind].
    + split; [discriminate|]. intros ([|b' l1] & x & l2 & E & H & Hx); injection E as <- E; [congruence|]. subst l. destruct IH as [_ IH]. discriminate IH. exists l1, x, l2. split; [reflexivity|]. split; [intros y Hy; apply H; right; exact Hy|exact Hx].
    + split.
      * intros H. injection H as <-. destruct IH as [IH _]. destruct (IH eq_refl) as (l1 & y & l2 & -> & H & Hy). exists (b :: l1), y, l2. split; [reflexivity|]. split; [intros z [<-|Hz]; [eauto|auto]|exact Hy].
      * intros ([|b' l1] & y & l2 & E & H & Hy); injection E as <- E; [congruence|]. subst l. destruct IH as [_ IH]. rewrite <- IH; [reflexivity|]. exists l1, y, l2. split; [reflexivity|]. split; [intros z Hz; apply H; right; exact Hz|exact Hy].
  - split.
    + intros H. injection H as <-. exists [], b, l. split; [reflexivity|]. split; [intros y []|exact Eb].
    + intros ([|b' l1] & y & l2 & E & H & Hy); injection E as <- E; [congruence|]. destruct (H b (or_introl eq_refl)) as [z Hz]. congruence.
Qed.

Lemma quantity_eq n w : counted n w = quantity n w.
Proof. unfold counted, quantity. do 3 f_equal. destruct (Nat.ltb_spec 1 n), (Nat.leb_spec n 1); try lia; reflexivity. Qed.
Lemma channels_iff (X : @sigset A V K) n : NoDup (map fst (t_dict (ss_tags X))) -> (channels_shown X n <-> n = nb_channels X).
Proof. intros H. unfold channels_shown, nb_channels, nb_channels_of. destruct (ss_signals X); [apply size_shown_iff; exact H|reflexivity]. Qed.

Definition item_text (e : string * list nat) : string := (str_repr (fst e) ++ ": " ++ tuple_text (snd e))%string.
Lemma texts_iff items texts : Forall2 tag_text items texts <-> texts = map item_text items.
Proof.
  split.
  - induction 1 as [|e t items texts (u & Hu & ->) H IH]; [reflexivity|]. cbn [map]. rewrite IH. f_equal. unfold item_text. rewrite tuple_tupled. f_equal. eapply literal_functional; [exact Hu|apply str_repr_literal].
  - intros ->. induction items as [|e l IH]; constructor; [|exact IH]. exists (str_repr (fst e)). unfold item_text. rewrite tuple_tupled. split; [apply str_repr_literal|reflexivity].
Qed.

Lemma ok_eq {B} (a b : B) : Ok a = Ok b -> a = b.
Proof. intros H. injection H. auto. Qed.
Lemma set_str_iff (X : @sigset A V K) t : tags_valid (ss_tags X) ->
  (set_str val X = Ok t <-> (forall l, ~ reads (ss_tags X) "items" l) /\ printed val X t).
Proof.
  intros Hv. assert (Hn : NoDup (map fst (t_dict (ss_tags X)))) by apply Hv.
  assert (M : method (ss_tags X) "items" = Ok tt <-> forall l, ~ reads (ss_tags X) "items" l).
  { rewrite <- no_items by exact Hn. unfold method, shadows, dmem, check. destruct (dget "items" (t_dict (ss_tags X))); cbn; split; intros; congruence. }
  unfold set_str, table, tags_lines. split.
  - intros H. apply bind_ok in H as (sig & Hs & H). apply bind_ok in Hs as (runs & Hr & Hs). apply ok_eq in Hs. subst sig. apply bind_ok in H as (tg & Ht & H). apply bind_ok in Ht as ([] & Hm & Ht). apply ok_eq in Ht. subst tg. apply ok_eq in H. subst t.
    split; [apply M; exact Hm|]. apply mapM_Forall2 in Hr.
    exists (nb_channels X), (stable_sort item_ltb (t_dict (ss_tags X))), (map item_text (stable_sort item_ltb (t_dict (ss_tags X)))), (wrapr [] (map item_text (stable_sort item_ltb (t_dict (ss_tags X))))), runs.
    split; [apply channels_iff; [exact Hn|reflexivity]|]. split; [symmetry; apply sort_perm|]. split; [apply items_sorted; exact Hn|]. split; [apply texts_iff; reflexivity|].
    split; [apply wrapr_concat|]. split; [apply wrapr_filled; left; cbn; lia|]. split; [apply wrapr_first; cbn; lia|]. split.
    + eapply Forall2_impl; [|exact Hr]. intros s r Hr'. apply row_iff. exact Hr'.
    + rewrite content_rows. rewrite !quantity_eq. change (String.concat "  " (map (chars_of "-") sizes)) with rule. change (String.concat "  " titles) with "  sampling                start                 stop". rewrite concat_lines. cbn [app]. change nl with newline. unfold nb_runs.
      assert (N : runs ++ [rule] <> []) by (destruct runs; discriminate). rewrite !lines_cons by (exact N || discriminate). rewrite !text_assoc. reflexivity.
  - intros (Hm & n & items & texts & rows & runs & Hc & Hp & Hs & Ht & Ec & Hf & Hh & Hr & ->).
    assert (Hr' : mapM (run_row val) (ss_signals X) = Ok runs) by (apply mapM_Forall2; eapply Forall2_impl; [|exact Hr]; intros s r Hr'; apply row_iff; exact Hr'). rewrite Hr'. cbn [bind].
    rewrite (proj2 M Hm). cbn [bind].
    assert (items = stable_sort item_ltb (t_dict (ss_tags X))).
    { apply sorted_listing_unique; [eapply Permutation_NoDup; [apply Permutation_map; symmetry; exact Hp|exact Hn]|rewrite Hp; apply sort_perm|exact Hs|apply items_sorted; exact Hn]. }
    subst items. apply texts_iff in Ht. rewrite Ht in Ec. apply channels_iff in Hc; [|exact Hn]. subst n. rewrite (filled_unique rows Hf Hh), Ec. apply (f_equal Ok).
    change (fun e : string * list nat => (str_repr (fst e) ++ ": " ++ tuple_text (snd e))%string) with item_text.
    rewrite content_rows. rewrite !quantity_eq. change (String.concat "  " (map (chars_of "-") sizes)) with rule. change (String.concat "  " titles) with "  sampling                start                 stop". rewrite concat_lines. cbn [app]. change nl with newline. unfold nb_runs.
      assert (N : runs ++ [rule] <> []) by (destruct runs; discriminate). rewrite !lines_cons by (exact N || discriminate). rewrite !text_assoc. reflexivity.
Qed.
Lemma set_str_fails (X : @sigset A V K) e : tags_valid (ss_tags X) ->
  (set_str val X = Err e <->
   (exists l1 s l2, ss_signals X = l1 ++ s :: l2 /\ (forall r, In r l1 -> exists t, row_of val r t) /\ unprintable val s e) \/
   (e = TypeError /\ (exists l, reads (ss_tags X) "items" l) /\ forall r, In r (ss_signals X) -> exists t, row_of val r t)).
Proof.
  intros Hv. assert (Hn : NoDup (map fst (t_dict (ss_tags X)))) by apply Hv. unfold set_str, table, tags_lines, method, shadows, dmem, check.
  pose proof (no_items (ss_tags X) Hn) as NI. destruct (mapM (run_row val) (ss_signals X)) as [runs|x] eqn:E; cbn [bind].
  - assert (All : forall r, In r (ss_signals X) -> exists t, row_of val r t) by (intros r Hr; destruct (mapM_In _ _ _ _ E Hr) as (y & _ & Hy); exists y; apply row_iff; exact Hy).
    assert (NoFail : ~ exists l1 s l2, ss_signals X = l1 ++ s :: l2 /\ (forall r, In r l1 -> exists t, row_of val r t) /\ unprintable val s e).
    { intros (l1 & s & l2 & Es & _ & U). destruct (All s) as [t Ht]; [rewrite Es; apply in_elt|]. apply row_iff in Ht. apply row_fails in U. congruence. }
    destruct (dget "items" (t_dict (ss_tags X))) eqn:D; cbn.
    + split; [intros H; injection H as <-; right; split; [reflexivity|]; split; [eexists; apply dget_In; exact D|exact All]|]. intros [H|(-> & _)]; [destruct (NoFail H)|reflexivity].
    + split; [discriminate|]. intros [H|(_ & (l & Hl) & _)]; [destruct (NoFail H)|]. destruct (proj1 NI eq_refl l Hl).
  - apply mapM_first in E as (l1 & s & l2 & Es & H1 & H2). split.
    + intros H. injection H as <-. left. exists l1, s, l2. split; [exact Es|]. split; [intros r Hr; destruct (H1 r Hr) as [z Hz]; exists z; apply row_iff; exact Hz|apply row_fails; exact H2].
    + intros [(m1 & s' & m2 & Es' & G1 & G2)|(_ & _ & All)].
      * f_equal. assert (Q : mapM (run_row val) (ss_signals X) = Err x) by (apply mapM_first; exists l1, s, l2; auto).
        assert (Q' : mapM (run_row val) (ss_signals X) = Err e) by (apply mapM_first; exists m1, s', m2; split; [exact Es'|]; split; [intros y Hy; destruct (G1 y Hy) as [z Hz]; exists z; apply row_iff; exact Hz|apply row_fails; exact G2]).
        congruence.
      * destruct (All s) as [t Ht]; [rewrite Es; apply in_elt|]. apply row_iff in Ht. congruence.
Qed.

Lemma sync_str_iff (show : num A -> string) (s : sync A V K) t : sync_str val show s = Ok t <-> described val s (show (s_rate s)) t.
Proof.
  unfold sync_str, described. split.
  - intros H. apply bind_ok in H as (a & Ha & H). apply bind_ok in H as (stop & Hs & H). apply bind_ok in H as (b & Hb & H). injection H as <-.
    exists stop, a, b. split; [exact Hs|]. split; [apply clock_iff; exact Ha|]. split; [apply clock_iff; exact Hb|]. reflexivity.
  - intros (stop & a & b & Hs & Ha & Hb & ->). apply clock_iff in Ha, Hb. rewrite Ha, Hs. cbn [bind]. rewrite Hb. reflexivity.
Qed.
Lemma sync_str_fails (show : num A -> string) (s : sync A V K) e : sync_str val show s = Err e <-> unprintable val s e.
Proof.
  rewrite <- row_fails. unfold sync_str, run_row. destruct (date (val (s_start s))); cbn [bind]; [|reflexivity]. destruct (s_stop s) as [stop|]; cbn [bind]; [|reflexivity]. destruct (date (val stop)); cbn [bind]; [split; discriminate|reflexivity].
Qed.

(** ** inventories *)
Lemma inv_repr_iff (inv : list (@sigset A V K)) t :
  inv_repr val inv = Ok t <-> exists texts, Forall2 (fun X s => set_repr (fun x => gtext 2 (val x)) X = Ok s) inv texts /\ t = ("Inventory([" ++ listed texts ++ "])")%string.
Proof.
  unfold inv_repr. split.
  - intros H. apply bind_ok in H as (texts & Ht & H). injection H as <-. exists texts. rewrite concat_listed. split; [apply mapM_Forall2; exact Ht|reflexivity].
  - intros (texts & Ht & ->). apply mapM_Forall2 in Ht. rewrite Ht. cbn [bind]. rewrite concat_listed. reflexivity.
Qed.
End Text.

Lemma inv_repr_plain {A : Arith} {V K : Type} (val : num A -> Q) (inv : list (@sigset A V K)) :
  (forall X k l, In X inv -> reads (ss_tags X) k l -> tame k) ->
  exists show, (forall x, approx 2 (val x) (show x)) /\ inv_repr val inv = Ok ("Inventory([" ++ listed (map (set_text show) inv) ++ "])")%string.
Proof.
  intros H. exists (fun x => gtext 2 (val x)). split; [intros x; apply approx_iff; [lia|reflexivity]|]. apply inv_repr_iff. exists (map (set_text (fun x => gtext 2 (val x))) inv). split; [|reflexivity].
  induction inv as [|X inv IH]; constructor; [apply set_repr_plain; intros k l; apply H; left; reflexivity|]. apply IH. intros Y k l HY. apply H. right. exact HY.
Qed.
