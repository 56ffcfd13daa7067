(** Lemmas about Base.v. *)
From Verif Require Import Base.

Lemma bind_ok {A B} (m : res A) (k : A -> res B) (b : B) :
  bind m k = Ok b <-> exists a, m = Ok a /\ k a = Ok b.
Proof.
  split.
  - destruct m as [a|e]; simpl; [eauto|discriminate].
  - intros [a [-> H]]; exact H.
Qed.

Lemma check_ok (b : bool) e u : check b e = Ok u <-> b = true.
Proof. destruct b, u; simpl; split; intros; congruence. Qed.

Lemma of_option_ok {A} e (o : option A) a : of_option e o = Ok a <-> o = Some a.
Proof. destruct o; simpl; split; congruence. Qed.

(** invert a successful monadic computation *)
Ltac binv H :=
  let x := fresh "v" in let H1 := fresh "Hb" in let H2 := fresh "Hk" in
  apply bind_ok in H; destruct H as [x [H1 H2]].
Ltac binvs :=
  repeat match goal with
    | H : bind _ _ = Ok _ |- _ => binv H
    | H : check _ _ = Ok _ |- _ => apply check_ok in H
    | H : Ok _ = Ok _ |- _ => injection H; clear H; intros
    | H : Err _ = Ok _ |- _ => discriminate H
    end.

(** ** mapM *)
Lemma mapM_Forall2 {A B} (f : A -> res B) l l' :
  mapM f l = Ok l' <-> Forall2 (fun x y => f x = Ok y) l l'.
Proof.
  revert l'; induction l as [|x l IH]; intros l'; simpl.
  - split; intros H; [injection H as <-; constructor | inversion H; reflexivity].
  - split; intros H.
    + binvs; subst. constructor; [assumption|apply IH; assumption].
    + inversion H; subst. rewrite H2; simpl. apply IH in H4; rewrite H4; reflexivity.
Qed.

Lemma Forall2_len {A B} (R : A -> B -> Prop) l l' : Forall2 R l l' -> length l = length l'.
Proof. induction 1; simpl; congruence. Qed.

Lemma Forall2_impl {A B} (R R' : A -> B -> Prop) l l' :
  (forall x y, R x y -> R' x y) -> Forall2 R l l' -> Forall2 R' l l'.
Proof. induction 2; constructor; auto. Qed.

Lemma nth_error_Some_lt {A} (l : list A) i x : nth_error l i = Some x -> i < length l.
Proof. intros H. apply nth_error_Some. congruence. Qed.

Lemma mapM_length {A B} (f : A -> res B) l l' : mapM f l = Ok l' -> length l' = length l.
Proof. rewrite mapM_Forall2; intros H; symmetry; eapply Forall2_len; eauto. Qed.

Lemma Forall2_nth_error {A B} (R : A -> B -> Prop) l l' i x :
  Forall2 R l l' -> nth_error l i = Some x -> exists y, nth_error l' i = Some y /\ R x y.
Proof.
  intros H; revert i; induction H as [|a b l l' Hab Hl IH]; intros i Hi.
  - destruct i; discriminate.
  - destruct i as [|i]; simpl in *; [injection Hi as <-; eauto|eauto].
Qed.

Lemma Forall2_nth_error_r {A B} (R : A -> B -> Prop) l l' i y :
  Forall2 R l l' -> nth_error l' i = Some y -> exists x, nth_error l i = Some x /\ R x y.
Proof.
  intros H; revert i; induction H as [|a b l l' Hab Hl IH]; intros i Hi.
  - destruct i; discriminate.
  - destruct i as [|i]; simpl in *; [injection Hi as <-; eauto|eauto].
Qed.

Lemma mapM_nth {A B} (f : A -> res B) l l' i x :
  mapM f l = Ok l' -> nth_error l i = Some x -> exists y, nth_error l' i = Some y /\ f x = Ok y.
Proof. rewrite mapM_Forall2; intros H Hi; exact (Forall2_nth_error _ _ _ _ _ H Hi). Qed.

Lemma mapM_nth_r {A B} (f : A -> res B) l l' i y :
  mapM f l = Ok l' -> nth_error l' i = Some y -> exists x, nth_error l i = Some x /\ f x = Ok y.
Proof. rewrite mapM_Forall2; intros H Hi; exact (Forall2_nth_error_r _ _ _ _ _ H Hi). Qed.

Lemma mapM_In {A B} (f : A -> res B) l l' x :
  mapM f l = Ok l' -> In x l -> exists y, In y l' /\ f x = Ok y.
Proof.
  intros H Hx. apply In_nth_error in Hx; destruct Hx as [i Hi].
  destruct (mapM_nth _ _ _ _ _ H Hi) as [y [Hy Hf]]. eauto using nth_error_In.
Qed.

Lemma mapM_In_r {A B} (f : A -> res B) l l' y :
  mapM f l = Ok l' -> In y l' -> exists x, In x l /\ f x = Ok y.
Proof.
  intros H Hx. apply In_nth_error in Hx; destruct Hx as [i Hi].
  destruct (mapM_nth_r _ _ _ _ _ H Hi) as [x [Hy Hf]]. eauto using nth_error_In.
Qed.

Lemma mapM_ok_all {A B} (f : A -> res B) (g : A -> B) l :
  (forall x, In x l -> f x = Ok (g x)) -> mapM f l = Ok (map g l).
Proof.
  induction l as [|x l IH]; intros H; simpl; [reflexivity|].
  rewrite (H x (or_introl eq_refl)); simpl. rewrite IH; [reflexivity|].
  intros y Hy; apply H; right; exact Hy.
Qed.

Lemma mapM_map {A B C} (f : B -> res C) (g : A -> B) l :
  mapM f (map g l) = mapM (fun x => f (g x)) l.
Proof. induction l as [|x l IH]; simpl; [reflexivity|]. rewrite IH; reflexivity. Qed.

Lemma mapM_ext {A B} (f g : A -> res B) l :
  (forall x, In x l -> f x = g x) -> mapM f l = mapM g l.
Proof.
  induction l as [|x l IH]; intros H; simpl; [reflexivity|].
  rewrite (H x (or_introl eq_refl)), IH; [reflexivity|]. intros; apply H; right; assumption.
Qed.

Lemma mapM_ok_exists {A B} (f : A -> res B) l :
  (forall x, In x l -> exists y, f x = Ok y) -> exists l', mapM f l = Ok l'.
Proof.
  induction l as [|x l IH]; intros H; simpl; [eauto|].
  destruct (H x (or_introl eq_refl)) as [y Hy]. rewrite Hy; simpl.
  destruct IH as [l' Hl]; [intros; apply H; right; assumption|]. rewrite Hl; simpl; eauto.
Qed.

Lemma mapM_app {A B} (f : A -> res B) l1 l2 r1 r2 :
  mapM f l1 = Ok r1 -> mapM f l2 = Ok r2 -> mapM f (l1 ++ l2) = Ok (r1 ++ r2).
Proof.
  revert r1; induction l1 as [|x l IH]; intros r1 H1 H2; simpl in *.
  - injection H1 as <-; exact H2.
  - binvs; subst. rewrite Hb; simpl. erewrite IH by eauto. reflexivity.
Qed.

Lemma mapM_app_inv {A B} (f : A -> res B) l1 l2 r :
  mapM f (l1 ++ l2) = Ok r -> exists r1 r2, r = r1 ++ r2 /\ mapM f l1 = Ok r1 /\ mapM f l2 = Ok r2.
Proof.
  revert r; induction l1 as [|x l IH]; intros r H; simpl in *.
  - exists [], r; auto.
  - binvs; subst. apply IH in Hb0 as (r1 & r2 & -> & Hr1 & Hr2).
    exists (v :: r1), r2. rewrite Hb; simpl; rewrite Hr1; simpl. auto.
Qed.

(** ** lists *)
Lemma nth_error_ext {A} (l1 l2 : list A) :
  (forall i, nth_error l1 i = nth_error l2 i) -> l1 = l2.
Proof.
  revert l2; induction l1 as [|x l1 IH]; intros [|y l2] H; auto.
  - specialize (H 0); discriminate.
  - specialize (H 0); discriminate.
  - assert (x = y) by (specialize (H 0); simpl in H; congruence). subst.
    f_equal. apply IH. intros i; exact (H (S i)).
Qed.

Lemma nth_error_seq a n i : nth_error (seq a n) i = if i <? n then Some (a + i) else None.
Proof.
  revert a i; induction n as [|n IH]; intros a i; simpl; [destruct i; reflexivity|].
  destruct i as [|i]; simpl; [rewrite Nat.add_0_r; reflexivity|].
  rewrite IH. change (S i <? S n) with (i <? n). destruct (i <? n); [f_equal; lia|reflexivity].
Qed.

Lemma nth_error_map_some {A B} (f : A -> B) l i y :
  nth_error (map f l) i = Some y <-> exists x, nth_error l i = Some x /\ y = f x.
Proof.
  rewrite nth_error_map. destruct (nth_error l i) as [x|]; simpl; split.
  - intros H; injection H as <-; eauto.
  - intros [x' [Hx ->]]; congruence.
  - discriminate.
  - intros [x' [Hx _]]; discriminate.
Qed.

Lemma memb_In {A} (eqb : A -> A -> bool) (Heq : forall x y, eqb x y = true <-> x = y) x l :
  memb eqb x l = true <-> In x l.
Proof.
  unfold memb. rewrite existsb_exists. split.
  - intros [y [Hy He]]. apply Heq in He; subst; exact Hy.
  - intros H; exists x; split; [exact H|apply Heq; reflexivity].
Qed.

Lemma subsetb_incl {A} (eqb : A -> A -> bool) (Heq : forall x y, eqb x y = true <-> x = y) l1 l2 :
  subsetb eqb l1 l2 = true <-> incl l1 l2.
Proof.
  unfold subsetb. rewrite forallb_forall. unfold incl.
  split; intros H x Hx; specialize (H x Hx); apply (memb_In eqb Heq) in H || apply (memb_In eqb Heq); exact H.
Qed.

Lemma seteqb_iff {A} (eqb : A -> A -> bool) (Heq : forall x y, eqb x y = true <-> x = y) l1 l2 :
  seteqb eqb l1 l2 = true <-> (forall x, In x l1 <-> In x l2).
Proof.
  unfold seteqb. rewrite andb_true_iff, !(subsetb_incl eqb Heq). unfold incl. firstorder.
Qed.

Lemma In_dedup {A} (eqb : A -> A -> bool) (Heq : forall x y, eqb x y = true <-> x = y) x l :
  In x (dedup eqb l) <-> In x l.
Proof.
  induction l as [|y l IH]; simpl; [tauto|].
  rewrite filter_In, IH. destruct (eqb y x) eqn:E; simpl.
  - apply Heq in E; subst. tauto.
  - split; [tauto|]. intros [->|H]; [|tauto].
    assert (eqb x x = true) by (apply Heq; reflexivity). congruence.
Qed.

Lemma filter_id {A} (f : A -> bool) l : (forall x, In x l -> f x = true) -> filter f l = l.
Proof.
  induction l as [|x l IH]; intros H; simpl; [reflexivity|].
  rewrite (H x (or_introl eq_refl)), IH; [reflexivity|]. intros; apply H; right; assumption.
Qed.

Lemma NoDup_filter {A} (f : A -> bool) l : NoDup l -> NoDup (filter f l).
Proof.
  induction l as [|x l IH]; intros H; simpl; [constructor|].
  inversion H; subst. destruct (f x); [|auto]. constructor; [|auto].
  rewrite filter_In; tauto.
Qed.

Lemma NoDup_dedup {A} (eqb : A -> A -> bool) (Heq : forall x y, eqb x y = true <-> x = y) l :
  NoDup (dedup eqb l).
Proof.
  induction l as [|y l IH]; simpl; [constructor|].
  constructor; [|apply NoDup_filter; exact IH].
  rewrite filter_In. intros [_ H].
  assert (eqb y y = true) by (apply Heq; reflexivity). rewrite H0 in H; discriminate.
Qed.

Lemma dedup_NoDup_id {A} (eqb : A -> A -> bool) (Heq : forall x y, eqb x y = true <-> x = y) l :
  NoDup l -> dedup eqb l = l.
Proof.
  induction l as [|y l IH]; intros H; simpl; [reflexivity|].
  inversion H; subst. rewrite IH by assumption. f_equal.
  apply filter_id. intros x Hx.
  destruct (eqb y x) eqn:E; [|reflexivity]. apply Heq in E; subst; contradiction.
Qed.

Lemma dedup_length_NoDup {A} (eqb : A -> A -> bool) (Heq : forall x y, eqb x y = true <-> x = y) l :
  length (dedup eqb l) = length l <-> NoDup l.
Proof.
  split.
  - induction l as [|y l IH]; intros H; simpl in *; [constructor|].
    assert (Hle : forall m, length (filter (fun z => negb (eqb y z)) m) <= length m).
    { induction m as [|z m IHm]; simpl; [lia|]. destruct (negb (eqb y z)); simpl; lia. }
    assert (Hle2 : forall m, length (dedup eqb m) <= length m).
    { induction m as [|z m IHm]; simpl; [lia|].
      assert (length (filter (fun w => negb (eqb z w)) (dedup eqb m)) <= length (dedup eqb m)).
      { clear. induction (dedup eqb m) as [|w k IHk]; simpl; [lia|]. destruct (negb (eqb z w)); simpl; lia. }
      lia. }
    pose proof (Hle (dedup eqb l)). pose proof (Hle2 l).
    assert (Hl : length (dedup eqb l) = length l) by lia.
    assert (Hf : length (filter (fun z => negb (eqb y z)) (dedup eqb l)) = length (dedup eqb l)) by lia.
    constructor; [|auto].
    intros Hin. apply (In_dedup eqb Heq) in Hin.
    assert (Hx : forall m, In y m -> length (filter (fun z => negb (eqb y z)) m) < length m).
    { clear -Heq Hle. induction m as [|z m IHm]; simpl; intros Hi; [contradiction|].
      destruct Hi as [->|Hi].
      - assert (E : eqb y y = true) by (apply Heq; reflexivity). rewrite E; simpl. specialize (Hle m); lia.
      - specialize (IHm Hi). destruct (negb (eqb y z)); simpl; lia. }
    specialize (Hx _ Hin). lia.
  - intros H. rewrite dedup_NoDup_id; auto.
Qed.

Lemma dedup_all_eq {A} (eqb : A -> A -> bool) (Heq : forall x y, eqb x y = true <-> x = y) x l :
  dedup eqb l = [x] <-> (l <> [] /\ forall y, In y l -> y = x).
Proof.
  split.
  - intros H. split.
    + intros ->; discriminate.
    + intros y Hy. apply (In_dedup eqb Heq) in Hy. rewrite H in Hy. destruct Hy as [<-|[]]; reflexivity.
  - intros [Hne H]. destruct l as [|z l]; [congruence|].
    simpl. assert (z = x) by (apply H; left; reflexivity). subst. f_equal.
    assert (Hl : forall y, In y (dedup eqb l) -> y = x).
    { intros y Hy; apply H; right. rewrite (In_dedup eqb Heq) in Hy; exact Hy. }
    induction (dedup eqb l) as [|w k IHk]; simpl; [reflexivity|].
    assert (w = x) by (apply Hl; left; reflexivity). subst.
    assert (E : eqb x x = true) by (apply Heq; reflexivity). rewrite E; simpl.
    apply IHk. intros; apply Hl; right; assumption.
Qed.

(** ** dictionaries *)
Lemma dget_In {B} k (d : dict B) v : dget k d = Some v -> In (k, v) d.
Proof.
  induction d as [|[k' v'] d IH]; simpl; [discriminate|].
  destruct (String.eqb_spec k k') as [->|Hk]; intros H; [injection H as <-; auto|auto].
Qed.

Lemma dget_None {B} k (d : dict B) : dget k d = None <-> ~ In k (dkeys d).
Proof.
  induction d as [|[k' v'] d IH]; simpl; [tauto|].
  destruct (String.eqb_spec k k') as [->|Hk]; [split; [discriminate|tauto]|].
  rewrite IH. split; [intros H [E|E]; [congruence|tauto]|tauto].
Qed.

Lemma dget_Some_key {B} k (d : dict B) : In k (dkeys d) <-> exists v, dget k d = Some v.
Proof.
  split.
  - intros H. destruct (dget k d) as [v|] eqn:E; [eauto|]. apply dget_None in E; contradiction.
  - intros [v Hv]. destruct (in_dec string_dec k (dkeys d)) as [H|H]; [exact H|].
    apply dget_None in H; congruence.
Qed.

Lemma In_dget {B} k v (d : dict B) : NoDup (dkeys d) -> In (k, v) d -> dget k d = Some v.
Proof.
  induction d as [|[k' v'] d IH]; simpl; intros Hnd H; [contradiction|].
  inversion Hnd; subst. destruct H as [E|H].
  - injection E as -> ->. rewrite String.eqb_refl; reflexivity.
  - destruct (String.eqb_spec k k') as [->|Hk]; [|auto].
    exfalso; apply H2. apply (in_map fst) in H; exact H.
Qed.

Lemma dmem_In {B} k (d : dict B) : dmem k d = true <-> In k (dkeys d).
Proof.
  unfold dmem. rewrite dget_Some_key. destruct (dget k d); split; intros H; eauto; try discriminate.
  destruct H; discriminate.
Qed.

Lemma dmem_false {B} k (d : dict B) : dmem k d = false <-> ~ In k (dkeys d).
Proof. rewrite <- dmem_In. destruct (dmem k d); split; intros; congruence. Qed.

Lemma dget_dset_same {B} k v (d : dict B) : dget k (dset k v d) = Some v.
Proof.
  induction d as [|[k' v'] d IH]; simpl; [rewrite String.eqb_refl; reflexivity|].
  destruct (String.eqb_spec k k') as [->|Hk]; simpl.
  - rewrite String.eqb_refl; reflexivity.
  - destruct (String.eqb_spec k k'); [contradiction|exact IH].
Qed.

Lemma dget_dset_other {B} k k2 v (d : dict B) : k2 <> k -> dget k2 (dset k v d) = dget k2 d.
Proof.
  intros Hne. induction d as [|[k' v'] d IH]; simpl.
  - destruct (String.eqb_spec k2 k); [contradiction|reflexivity].
  - destruct (String.eqb_spec k k') as [->|Hk]; simpl.
    + destruct (String.eqb_spec k2 k'); [contradiction|reflexivity].
    + destruct (String.eqb_spec k2 k'); [reflexivity|exact IH].
Qed.

Lemma dkeys_dset {B} k v (d : dict B) :
  dkeys (dset k v d) = if dmem k d then dkeys d else dkeys d ++ [k].
Proof.
  unfold dmem. induction d as [|[k' v'] d IH]; simpl; [reflexivity|].
  destruct (String.eqb_spec k k') as [->|Hk]; simpl; [reflexivity|].
  rewrite IH. destruct (dget k d); reflexivity.
Qed.

Lemma NoDup_app_single {A} (l : list A) x : NoDup l -> ~ In x l -> NoDup (l ++ [x]).
Proof.
  intros Hl Hx. apply Permutation_NoDup with (x :: l); [apply Permutation_cons_append|constructor; assumption].
Qed.

Lemma NoDup_dset {B} k v (d : dict B) : NoDup (dkeys d) -> NoDup (dkeys (dset k v d)).
Proof.
  intros H. rewrite dkeys_dset. destruct (dmem k d) eqn:E; [exact H|].
  apply NoDup_app_single; [exact H|]. apply dmem_false; exact E.
Qed.

Lemma dset_fresh {B} k v (d : dict B) : ~ In k (dkeys d) -> dset k v d = d ++ [(k, v)].
Proof.
  induction d as [|[k' v'] d IH]; simpl; intros H; [reflexivity|].
  destruct (String.eqb_spec k k') as [->|Hk]; [tauto|]. rewrite IH by tauto. reflexivity.
Qed.

Lemma dget_ddel_other {B} k k2 (d : dict B) : k2 <> k -> dget k2 (ddel k d) = dget k2 d.
Proof.
  intros Hne. induction d as [|[k' v'] d IH]; simpl; [reflexivity|].
  destruct (String.eqb_spec k k') as [->|Hk]; simpl.
  - destruct (String.eqb_spec k2 k'); [contradiction|reflexivity].
  - destruct (String.eqb_spec k2 k'); [reflexivity|exact IH].
Qed.

Lemma In_ddel {B} k (d : dict B) x : In x (ddel k d) -> In x d.
Proof.
  induction d as [|[k' v'] d IH]; simpl; [tauto|].
  destruct (String.eqb k k'); simpl; tauto.
Qed.

Lemma NoDup_ddel {B} k (d : dict B) : NoDup (dkeys d) -> NoDup (dkeys (ddel k d)).
Proof.
  induction d as [|[k' v'] d IH]; simpl; intros H; [constructor|].
  inversion H; subst. destruct (String.eqb k k'); simpl; [assumption|].
  constructor; [|auto]. intros Hin. apply H2.
  apply in_map_iff in Hin as [[a b] [E Hin]]. simpl in E; subst.
  apply In_ddel in Hin. apply (in_map fst) in Hin; exact Hin.
Qed.

Lemma dget_ddel_same {B} k (d : dict B) : NoDup (dkeys d) -> dget k (ddel k d) = None.
Proof.
  induction d as [|[k' v'] d IH]; simpl; intros H; [reflexivity|].
  inversion H; subst. destruct (String.eqb_spec k k') as [->|Hk]; simpl.
  - apply dget_None; assumption.
  - destruct (String.eqb_spec k k'); [contradiction|auto].
Qed.

(** ** stable sort *)
Section SortLemmas.
  Context {A : Type} (lt : A -> A -> bool).
  Notation ins := (insert lt).
  Notation srt := (stable_sort lt).
  Notation le := (fun x y => lt y x = false).

  Lemma insert_perm x l : Permutation (x :: l) (ins x l).
  Proof.
    induction l as [|y l IH]; simpl; [reflexivity|].
    destruct (lt y x); [|reflexivity].
    transitivity (y :: x :: l); [constructor|]. constructor; exact IH.
  Qed.

  Lemma sort_perm l : Permutation l (srt l).
  Proof.
    induction l as [|x l IH]; simpl; [constructor|].
    transitivity (x :: srt l); [constructor; exact IH|apply insert_perm].
  Qed.

  Lemma sort_In x l : In x (srt l) <-> In x l.
  Proof. split; apply Permutation_in; [symmetry|]; apply sort_perm. Qed.

  Lemma sort_length l : length (srt l) = length l.
  Proof. symmetry; apply Permutation_length, sort_perm. Qed.

  (** laws needed on the elements satisfying [P] *)
  Variable P : A -> Prop.
  Hypothesis lt_asym : forall x y, P x -> P y -> lt x y = true -> lt y x = false.
  Hypothesis le_trans : forall x y z, P x -> P y -> P z -> lt y x = false -> lt z y = false -> lt z x = false.

  Lemma insert_sorted x l : P x -> Forall P l -> StronglySorted le l -> StronglySorted le (ins x l).
  Proof.
    intros Px. induction l as [|y l IH]; intros HP Hs; simpl.
    - constructor; constructor.
    - inversion HP; subst. inversion Hs; subst. destruct (lt y x) eqn:E.
      + constructor; [auto|].
        apply Forall_forall. intros z Hz.
        apply (Permutation_in _ (Permutation_sym (insert_perm x l))) in Hz. destruct Hz as [<-|Hz].
        * apply lt_asym; assumption.
        * rewrite Forall_forall in H4; auto.
      + constructor; [assumption|]. constructor; [assumption|].
        rewrite Forall_forall in *. intros z Hz. apply (le_trans x y z); auto.
  Qed.

  Lemma sort_sorted l : Forall P l -> StronglySorted le (srt l).
  Proof.
    induction l as [|x l IH]; intros HP; simpl; [constructor|].
    inversion HP; subst. apply insert_sorted; [assumption| |auto].
    rewrite Forall_forall in *. intros y Hy. rewrite sort_In in Hy. auto.
  Qed.

  Lemma insert_sorted_id x l : Forall (fun y => lt y x = false) l -> ins x l = x :: l.
  Proof. destruct l as [|y l]; simpl; intros H; [reflexivity|]. inversion H; subst. rewrite H2; reflexivity. Qed.

  Lemma sort_sorted_id l : StronglySorted le l -> srt l = l.
  Proof.
    induction l as [|x l IH]; intros H; simpl; [reflexivity|].
    inversion H; subst. rewrite IH by assumption. apply insert_sorted_id; assumption.
  Qed.

  (** two sorted permutations are equal when no two elements are equivalent *)
  Lemma sorted_perm_unique l1 l2 :
    Permutation l1 l2 ->
    StronglySorted le l1 -> StronglySorted le l2 ->
    (forall x y, In x l1 -> In y l1 -> lt x y = false -> lt y x = false -> x = y) ->
    l1 = l2.
  Proof.
    revert l2. induction l1 as [|x l1 IH]; intros l2 Hp H1 H2 Hq.
    - apply Permutation_nil in Hp; subst; reflexivity.
    - destruct l2 as [|y l2]; [apply Permutation_sym, Permutation_nil in Hp; discriminate|].
      inversion H1; subst. inversion H2; subst.
      assert (x = y).
      { assert (Hy : In y (x :: l1)) by (apply Permutation_in with (y :: l2); [symmetry; exact Hp|left; reflexivity]).
        assert (Hx : In x (y :: l2)) by (apply Permutation_in with (x :: l1); [exact Hp|left; reflexivity]).
        destruct Hy as [<-|Hy]; [reflexivity|]. destruct Hx as [<-|Hx]; [reflexivity|].
        rewrite Forall_forall in H4, H6.
        apply Hq; [left; reflexivity|right; assumption| apply H6; assumption | apply H4; assumption]. }
      subst. f_equal. apply IH; auto.
      + apply Permutation_cons_inv with y; exact Hp.
      + intros; apply Hq; auto; right; assumption.
  Qed.
End SortLemmas.

Lemma sort_map {A B} (ltA : A -> A -> bool) (ltB : B -> B -> bool) (f : A -> B) l :
  (forall x y, ltB (f x) (f y) = ltA x y) ->
  stable_sort ltB (map f l) = map f (stable_sort ltA l).
Proof.
  intros H. induction l as [|x l IH]; simpl; [reflexivity|]. rewrite IH.
  generalize (stable_sort ltA l); clear l IH. intros l.
  induction l as [|y l IH]; simpl; [reflexivity|].
  rewrite H. destruct (ltA y x); simpl; [rewrite IH|]; reflexivity.
Qed.

(** ** strings *)
Lemma str_ltb_trans_false : forall a b c, str_ltb b a = false -> str_ltb c b = false -> str_ltb c a = false.
Proof.
  induction a as [|x a IH]; intros [|y b] [|z c]; simpl; try congruence.
  intros H1 H2.
  destruct (N.ltb_spec (N_of_ascii y) (N_of_ascii x)); [discriminate|].
  destruct (N.ltb_spec (N_of_ascii z) (N_of_ascii y)); [discriminate|].
  destruct (N.ltb_spec (N_of_ascii x) (N_of_ascii y));
  destruct (N.ltb_spec (N_of_ascii y) (N_of_ascii z));
  destruct (N.ltb_spec (N_of_ascii z) (N_of_ascii x)); try lia;
  destruct (N.ltb_spec (N_of_ascii x) (N_of_ascii z)); try lia; try reflexivity.
  eauto.
Qed.

Lemma str_ltb_asym : forall a b, str_ltb a b = true -> str_ltb b a = false.
Proof.
  induction a as [|x a IH]; intros [|y b]; simpl; try congruence.
  destruct (N.ltb_spec (N_of_ascii x) (N_of_ascii y));
  destruct (N.ltb_spec (N_of_ascii y) (N_of_ascii x)); try lia; try congruence; auto.
Qed.

Lemma str_ltb_antisym : forall a b, str_ltb a b = false -> str_ltb b a = false -> a = b.
Proof.
  induction a as [|x a IH]; intros [|y b]; simpl; try congruence.
  destruct (N.ltb_spec (N_of_ascii x) (N_of_ascii y));
  destruct (N.ltb_spec (N_of_ascii y) (N_of_ascii x)); try lia; try congruence.
  intros H1 H2. assert (E : N_of_ascii x = N_of_ascii y) by lia.
  apply (f_equal ascii_of_N) in E. rewrite !ascii_N_embedding in E. subst. f_equal; auto.
Qed.

Lemma string_eqb_iff : forall x y : string, String.eqb x y = true <-> x = y.
Proof. intros; apply String.eqb_eq. Qed.
Lemma nat_eqb_iff : forall x y : nat, Nat.eqb x y = true <-> x = y.
Proof. intros; apply Nat.eqb_eq. Qed.
