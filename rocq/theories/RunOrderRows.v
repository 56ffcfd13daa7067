(** Rows named by their positions in two orders. *)
From Coq Require Import ZArith Permutation Sorted Lia.
From Verif Require Import Base BaseLemmas MestModel SpecMest PrefilterModel UtilsModel UtilsProofs SpecFull.
Open Scope nat_scope.

Lemma NoDup_map_in {S T} (h : S -> T) l : NoDup l -> (forall x y, In x l -> In y l -> h x = h y -> x = y) -> NoDup (map h l).
Proof.
  induction 1 as [|x l Hx N IH]; intros H; cbn [map]; constructor.
  - intros Hi. apply in_map_iff in Hi as (y & E & Hy). apply Hx. rewrite (H x y); [exact Hy|left; reflexivity|right; exact Hy|congruence].
  - apply IH. intros y z Hy Hz. apply H; right; assumption.
Qed.

Lemma same_rows_length p iv iv' : NoDup p -> NoDup iv -> NoDup iv' -> same_rows p iv iv' -> length iv' = length iv.
Proof.
  intros Np N N' [H1 H2]. set (h := fun z => Z.of_nat (nth (Z.to_nat z) p 0)).
  assert (Hh : forall j i, nth_error p j = Some i -> h (Z.of_nat j) = Z.of_nat i).
  { intros j i E. unfold h. rewrite Nat2Z.id, (nth_error_nth _ _ _ E). reflexivity. }
  apply Nat.le_antisymm.
  - rewrite <- (map_length h iv'). apply NoDup_incl_length.
    + apply NoDup_map_in; [exact N'|]. intros x y Hx Hy E. apply H2 in Hx as (j & i & -> & Ej & _). apply H2 in Hy as (j' & i' & -> & Ej' & _).
      rewrite (Hh _ _ Ej), (Hh _ _ Ej') in E. apply Nat2Z.inj in E. subst i'. f_equal. apply (proj1 (NoDup_nth_error p) Np); [|congruence].
      apply nth_error_Some. congruence.
    + intros z Hz. apply in_map_iff in Hz as (y & <- & Hy). apply H2 in Hy as (j & i & -> & Ej & Hi). rewrite (Hh _ _ Ej). exact Hi.
  - rewrite <- (map_length h iv'). apply NoDup_incl_length; [exact N|].
    intros z Hz. destruct (H1 z Hz) as (i & Hi & ->). destruct (In_nth_error _ _ Hi) as (j & Ej). rewrite <- (Hh _ _ Ej). apply in_map, H2. eauto.
Qed.

Lemma Forall2_In_l {S T} (R : S -> T -> Prop) l l' x : Forall2 R l l' -> In x l -> exists y, In y l' /\ R x y.
Proof. induction 1 as [|a b l l' H F IH]; intros Hx; [destruct Hx|]. destruct Hx as [<-|Hx]; [exists b; simpl; auto|]. destruct (IH Hx) as (y & H1 & H2). exists y. simpl. auto. Qed.
Lemma Forall2_In_r {S T} (R : S -> T -> Prop) l l' y : Forall2 R l l' -> In y l' -> exists x, In x l /\ R x y.
Proof. induction 1 as [|a b l l' H F IH]; intros Hx; [destruct Hx|]. destruct Hx as [<-|Hx]; [exists a; simpl; auto|]. destruct (IH Hx) as (x & H1 & H2). exists x. simpl. auto. Qed.

Lemma merged_same p ivs ivs' : Forall2 (same_rows p) ivs ivs' -> same_rows p (merged ivs) (merged ivs').
Proof.
  intros F. split.
  - intros z Hz. apply merged_In in Hz as (iv & Hi & Hz). destruct (Forall2_In_l _ _ _ _ F Hi) as (iv' & _ & [H _]). apply H, Hz.
  - intros z. rewrite merged_In. split.
    + intros (iv' & Hi & Hz). destruct (Forall2_In_r _ _ _ _ F Hi) as (iv & Hi' & [_ H]). destruct (proj1 (H z) Hz) as (j & i & -> & Ej & Hz').
      exists j, i. repeat split; [exact Ej|]. apply merged_In. eauto.
    + intros (j & i & -> & Ej & Hz). apply merged_In in Hz as (iv & Hi & Hz). destruct (Forall2_In_l _ _ _ _ F Hi) as (iv' & Hi' & [_ H]).
      exists iv'. split; [exact Hi'|]. apply H. eauto.
Qed.

Lemma merged_legal n ivs : Forall (legal n) ivs -> legal n (merged ivs).
Proof. intros F z Hz. apply merged_In in Hz as (iv & Hi & Hz). rewrite Forall_forall in F. apply (F iv Hi), Hz. Qed.

Lemma sorted_NoDup l : StronglySorted Z.lt l -> NoDup l.
Proof. induction 1 as [|x l S IH F]; constructor; [|exact IH]. intros Hx. rewrite Forall_forall in F. specialize (F x Hx). lia. Qed.
