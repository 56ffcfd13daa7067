(** Proofs about attribute access. *)
From Verif Require Import Base BaseLemmas Arith OrdLaws TagsModel SpecTags TagsProofs SyncModel SetModel SpecSet SetProofs
  SpecSelect TrackProofs SelectProofs AttrModel SpecAttr.
Local Open Scope string_scope. Local Open Scope list_scope.

Lemma memb_str x l : memb String.eqb x l = true <-> In x l.
Proof. apply (memb_In _ string_eqb_iff). Qed.

Definition members : list string := "tags" :: "signals" :: computed ++ methods.
Lemma class_members : forall k, public k -> (In k of_the_class <-> In k members).
Proof.
  assert (H1 : forallb (fun k => memb String.eqb k members) of_the_class = true) by (vm_compute; reflexivity).
  assert (H2 : forallb (fun k => memb String.eqb k of_the_class || match k with String c _ => Ascii.eqb c "_" | EmptyString => false end) members = true)
    by (vm_compute; reflexivity).
  rewrite forallb_forall in H1, H2. intros k Hk. split; intros H.
  - apply memb_str, H1, H.
  - specialize (H2 _ H). apply orb_true_iff in H2 as [H2|H2]; [apply memb_str, H2|]. destruct k as [|c k]; [discriminate|].
    apply Ascii.eqb_eq in H2. contradiction.
Qed.

Section Attr.
Context {A : Arith} {V K : Type} (kone : K).
Notation sigset := (@sigset A V K).
Notation attribute := (@attribute A V K kone).

Lemma own_other (get : string -> outcome pval) (o : inst) k : ~ In k members -> k <> "_tags" -> k <> "_signals" ->
  own (A := A) (V := V) (K := K) get o k = Done (Err AttributeError).
Proof.
  intros H H1 H2. unfold own, members in *.
  destruct (String.eqb_spec k "tags") as [->|_]; [exfalso; apply H; left; reflexivity|].
  destruct (String.eqb_spec k "signals") as [->|_]; [exfalso; apply H; right; left; reflexivity|].
  destruct (memb String.eqb k computed) eqn:E1; [apply memb_str in E1; exfalso; apply H; right; right; apply in_or_app; auto|].
  destruct (memb String.eqb k methods) eqn:E2; [apply memb_str in E2; exfalso; apply H; right; right; apply in_or_app; auto|].
  destruct o; [reflexivity|]. destruct (String.eqb_spec k "_tags"); [contradiction|]. destruct (String.eqb_spec k "_signals"); [contradiction|reflexivity].
Qed.

Lemma get_field n X : 1 <= n -> attribute n (Built X) "_tags" = Done (Ok (PTags (ss_tags X))) /\
  attribute n (Built X) "_signals" = Done (Ok (PSignals (ss_signals X))).
Proof. destruct n as [|n]; [lia|]. intros _. split; reflexivity. Qed.
Lemma get_main n X : 2 <= n -> attribute n (Built X) "tags" = Done (Ok (PTags (ss_tags X))) /\
  attribute n (Built X) "signals" = Done (Ok (PSignals (ss_signals X))).
Proof.
  destruct n as [|n]; [lia|]. intros H. destruct (get_field n X ltac:(lia)) as (E1 & E2). split.
  - cbn [AttrModel.attribute]. unfold own. cbn [String.eqb Ascii.eqb Bool.eqb]. rewrite E1. reflexivity.
  - cbn [AttrModel.attribute]. unfold own. cbn [String.eqb Ascii.eqb Bool.eqb]. rewrite E2. reflexivity.
Qed.
Lemma get_member n X k : 3 <= n -> In k (computed ++ methods) -> attribute n (Built X) k = Done (Ok (PMember k)).
Proof.
  destruct n as [|n]; [lia|]. intros H Hk. destruct (get_main n X ltac:(lia)) as (_ & E2).
  cbn [AttrModel.attribute]. unfold own.
  assert (Ht : k <> "tags" /\ k <> "signals").
  { split; intros ->; apply memb_str in Hk; vm_compute in Hk; discriminate. }
  destruct Ht as (Ht & Hs). destruct (String.eqb_spec k "tags"); [contradiction|]. destruct (String.eqb_spec k "signals"); [contradiction|].
  destruct (memb String.eqb k computed) eqn:E; [rewrite E2; reflexivity|].
  apply in_app_or in Hk as [Hk|Hk]; apply memb_str in Hk; [congruence|]. rewrite Hk. reflexivity.
Qed.
Lemma class_attributes n X k : 3 <= n -> In k of_the_class ->
  attribute n (Built X) k = Done (Ok (if String.eqb k "tags" then PTags (ss_tags X) else if String.eqb k "signals" then PSignals (ss_signals X) else PMember k)).
Proof.
  intros H Hk. destruct (get_main n X ltac:(lia)) as (E1 & E2).
  destruct (String.eqb_spec k "tags") as [->|N1]; [exact E1|]. destruct (String.eqb_spec k "signals") as [->|N2]; [exact E2|].
  apply get_member; [exact H|]. assert (Hm : In k members).
  { apply class_members; [|exact Hk]. assert (G : forallb (fun k => match k with String c _ => negb (Ascii.eqb c "_") | EmptyString => true end) of_the_class = true) by (vm_compute; reflexivity).
    rewrite forallb_forall in G. specialize (G _ Hk). destruct k as [|c k]; [exact I|]. simpl. intros ->. discriminate. }
  destruct Hm as [Hm|[Hm|Hm]]; [congruence|congruence|exact Hm].
Qed.

Lemma get_other n X k : 3 <= n -> ~ In k members -> k <> "_tags" -> k <> "_signals" ->
  attribute n (Built X) k =
  Done (match dget k (t_dict (ss_tags X)) with
        | None => Err AttributeError
        | Some _ => match select_channels kone X (SelOne (CName k)) with
                    | Ok Y => Ok (PSet Y)
                    | Err ValueError => Err AttributeError
                    | Err e => Err e end end).
Proof.
  destruct n as [|n]; [lia|]. intros H H1 H2 H3. destruct (get_main n X ltac:(lia)) as (E1 & E2).
  cbn [AttrModel.attribute]. rewrite (own_other _ _ k H1 H2 H3). unfold choose. rewrite E1, E2. unfold dmem.
  destruct (dget k (t_dict (ss_tags X))); [|reflexivity]. destruct X as [sg t]. cbn [ss_signals ss_tags].
  destruct (select_channels kone (mkSet sg t) (SelOne (CName k))) as [Y|[]]; reflexivity.
Qed.

Lemma blank_get : forall n k, ~ In k methods -> attribute n Blank k = RecursionError.
Proof.
  induction n as [|n IH]; intros k H; [reflexivity|]. cbn [AttrModel.attribute].
  assert (G : forall x, In x ["_tags"; "_signals"; "signals"; "tags"] -> attribute n Blank x = RecursionError).
  { intros x Hx. apply IH. intros Hm. apply memb_str in Hm. simpl in Hx. repeat (destruct Hx as [<-|Hx]; [vm_compute in Hm; discriminate|]). destruct Hx. }
  assert (Gt : attribute n Blank "tags" = RecursionError) by (apply G; simpl; tauto).
  assert (Hown : own (A := A) (V := V) (K := K) (attribute n Blank) Blank k = RecursionError \/
                 own (A := A) (V := V) (K := K) (attribute n Blank) Blank k = Done (Err AttributeError)).
  { unfold own. destruct (String.eqb k "tags"); [left; apply G; simpl; tauto|]. destruct (String.eqb k "signals"); [left; apply G; simpl; tauto|].
    destruct (memb String.eqb k computed); [left; rewrite G by (simpl; tauto); reflexivity|].
    destruct (memb String.eqb k methods) eqn:E; [apply memb_str in E; contradiction|]. right. reflexivity. }
  destruct Hown as [-> | ->]; [reflexivity|]. unfold choose. rewrite Gt. reflexivity.
Qed.
Lemma not_copied n X : copied kone n X = RecursionError (X := sigset).
Proof.
  unfold copied, has_attribute. rewrite blank_get; [reflexivity|]. intros H. apply memb_str in H. vm_compute in H. discriminate.
Qed.

(** with what is known of selections *)
Lemma attr_tag (L : OrdLaws A) X k l : reach kone X -> plain (ss_tags X) -> reads (ss_tags X) k l -> ~ In k of_the_class ->
  exists Y sel, (forall n, 3 <= n -> attribute n (Built X) k = Done (Ok (PSet Y))) /\
  getitem kone X (GChan (SelOne (CName k))) = Ok Y /\
  StronglySorted lt sel /\ (forall i, In i sel <-> In i l) /\ Forall2 (run_selected sel) (ss_signals X) (ss_signals Y).
Proof.
  intros HX Hp Hk Hc. pose proof (reach_wf kone L _ HX) as Hw.
  assert (Hv : tags_valid (ss_tags X)) by (apply Hw).
  assert (Hd : dget k (t_dict (ss_tags X)) = Some l) by (apply (reads_dget _ _ _ Hv); exact Hk).
  assert (Hne : exists i, In i l).
  { destruct l as [|i l]; [|exists i; left; reflexivity]. exfalso. exact (tv_nonempty _ Hv k [] Hk eq_refl). }
  assert (Huniq : forall l', reads (ss_tags X) k l' -> l' = l).
  { intros l' Hl'. apply (reads_dget _ _ _ Hv) in Hl'. congruence. }
  destruct (select_channels_ok kone X (SelOne (CName k)) Hw Hp) as (Y & HY).
  { intros Hu. exact (Hu l Hk). }
  { right. destruct Hne as (i & Hi). exists i, l. auto. }
  destruct (select_channels_spec kone X (SelOne (CName k)) Y Hw Hp HY) as (sel & H1 & H2 & H3 & _).
  exists Y, sel. split; [|split; [exact HY|split; [exact H1|split; [|exact H3]]]].
  - intros n Hn. assert (Hpub : public k).
    { destruct (tv_names _ Hv k l Hk) as (c & r & -> & Hl). simpl. intros ->. vm_compute in Hl. intuition discriminate. }
    rewrite get_other; [rewrite Hd, HY; reflexivity|exact Hn|rewrite <- (class_members k Hpub); exact Hc|intros ->; exact (Hpub eq_refl)|intros ->; exact (Hpub eq_refl)].
  - intros i. rewrite H2. split; [intros (l' & Hl' & Hi); rewrite (Huniq _ Hl') in Hi; exact Hi|intros Hi; exists l; auto].
Qed.
Lemma attr_unknown X k : public k -> (forall l, ~ reads (ss_tags X) k l) -> ~ In k of_the_class ->
  forall n, 3 <= n -> attribute n (Built X) k = Done (Err AttributeError).
Proof.
  intros Hpub Hu Hc n Hn. rewrite get_other; [|exact Hn|rewrite <- (class_members k Hpub); exact Hc|intros ->; exact (Hpub eq_refl)|intros ->; exact (Hpub eq_refl)].
  destruct (dget k (t_dict (ss_tags X))) as [l|] eqn:E; [|reflexivity]. exfalso. apply (Hu l). unfold reads.
  clear -E. induction (t_dict (ss_tags X)) as [|[k' v] d IH]; [discriminate|]. simpl in E. destruct (String.eqb_spec k k').
  - injection E as ->. subst. left. reflexivity.
  - right. apply IH. exact E.
Qed.
Lemma attr_has (L : OrdLaws A) (X : sigset) k : reach kone X -> plain (ss_tags X) -> public k ->
  exists b, (forall n, 3 <= n -> has_attribute kone n (Built X) k = Done (Ok b)) /\
  (b = true <-> In k of_the_class \/ exists l, reads (ss_tags X) k l).
Proof.
  intros HX Hp Hk. destruct (memb String.eqb k of_the_class) eqn:E.
  - apply memb_str in E. exists true. split; [|tauto]. intros n Hn. unfold has_attribute. rewrite class_attributes by assumption. reflexivity.
  - assert (Hc : ~ In k of_the_class) by (intros H; apply memb_str in H; congruence). clear E.
    destruct (dget k (t_dict (ss_tags X))) as [l|] eqn:E.
    + assert (Hv : tags_valid (ss_tags X)) by (apply (reach_wf kone L _ HX)). apply (reads_dget _ _ _ Hv) in E.
      destruct (attr_tag L X k l HX Hp E Hc) as (Y & sel & H & _). exists true. split; [|split; eauto].
      intros n Hn. unfold has_attribute. rewrite H by exact Hn. reflexivity.
    + exists false. assert (Hv : tags_valid (ss_tags X)) by (apply (reach_wf kone L _ HX)).
      assert (Hu : forall l, ~ reads (ss_tags X) k l) by (intros l Hl; apply (reads_dget _ _ _ Hv) in Hl; congruence). split.
      * intros n Hn. unfold has_attribute. rewrite attr_unknown by assumption. reflexivity.
      * split; [discriminate|]. intros [H|(l & H)]; [contradiction|destruct (Hu l H)].
Qed.
End Attr.
