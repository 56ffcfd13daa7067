(** The complex numbers of Coquelicot as a field of mathcomp, with the conjugation
    as an automorphism. This joins the matrices of WlseModel.v and the formulas of
    RobustModel.v. A choice structure is needed; it comes from the axiom of
    Coq.Logic.ClassicalEpsilon. *)
From Coq Require Import Reals Lra ClassicalEpsilon FunctionalExtensionality.
From Coquelicot Require Import Complex.
From mathcomp Require Import all_ssreflect all_algebra.
Set Implicit Arguments.
Unset Strict Implicit.
Unset Printing Implicit Defensive.

Definition Ceqb (x y : C) : bool := if Ceq_dec x y then true else false.
Lemma CeqP : Equality.axiom Ceqb.
Proof. by move=> x y; rewrite /Ceqb; case: Ceq_dec => H; constructor. Qed.
Definition C_eqMixin := EqMixin CeqP.
Canonical C_eqType := Eval hnf in EqType C C_eqMixin.

Definition Cfind (P : pred C) (n : nat) : option C :=
  match excluded_middle_informative (exists x, P x) with
  | left H => Some (proj1_sig (constructive_indefinite_description _ H))
  | right _ => None
  end.
Lemma Cfind_ok (P : pred C) n x : Cfind P n = Some x -> P x.
Proof. rewrite /Cfind; case: excluded_middle_informative => // H [<-]; exact: (proj2_sig (constructive_indefinite_description _ H)). Qed.
Lemma Cfind_ex (P : pred C) : (exists x, P x) -> exists n, Cfind P n.
Proof. by move=> H; exists 0%N; rewrite /Cfind; case: excluded_middle_informative. Qed.
Lemma Cfind_ext (P Q : pred C) : P =1 Q -> Cfind P =1 Cfind Q.
Proof. by move=> /functional_extensionality ->. Qed.
Definition C_choiceMixin := Choice.Mixin Cfind_ok Cfind_ex Cfind_ext.
Canonical C_choiceType := Eval hnf in ChoiceType C C_choiceMixin.

Lemma CaddA : associative Cplus. Proof. by move=> x y z; rewrite Cplus_assoc. Qed.
Lemma CaddC : commutative Cplus. Proof. exact: Cplus_comm. Qed.
Lemma Cadd0 : left_id (RtoC 0) Cplus. Proof. exact: Cplus_0_l. Qed.
Lemma CaddN : left_inverse (RtoC 0) Copp Cplus. Proof. by move=> x; rewrite Cplus_comm Cplus_opp_r. Qed.
Definition C_zmodMixin := ZmodMixin CaddA CaddC Cadd0 CaddN.
Canonical C_zmodType := Eval hnf in ZmodType C C_zmodMixin.

Lemma CmulA : associative Cmult. Proof. by move=> x y z; rewrite Cmult_assoc. Qed.
Lemma CmulC : commutative Cmult. Proof. exact: Cmult_comm. Qed.
Lemma Cmul1 : left_id (RtoC 1) Cmult. Proof. exact: Cmult_1_l. Qed.
Lemma CmulD : left_distributive Cmult Cplus. Proof. by move=> x y z; rewrite Cmult_plus_distr_r. Qed.
Lemma C1_neq0 : RtoC 1 != RtoC 0 :> C. Proof. by apply/eqP => H; injection H; lra. Qed.
Definition C_ringMixin := ComRingMixin CmulA CmulC Cmul1 CmulD C1_neq0.
Canonical C_ringType := Eval hnf in RingType C C_ringMixin.
Canonical C_comRingType := Eval hnf in ComRingType C CmulC.

Definition Cinvs (x : C) : C := if x == RtoC 0 then RtoC 0 else Cinv x.
Lemma CmulV (x : C) : x != RtoC 0 -> Cmult (Cinvs x) x = RtoC 1.
Proof. by move=> H; rewrite /Cinvs (negbTE H) Cinv_l //; apply/eqP. Qed.
Lemma Cinv00 : Cinvs (RtoC 0) = RtoC 0. Proof. by rewrite /Cinvs eqxx. Qed.
Definition C_unitRingMixin := FieldUnitMixin CmulV Cinv00.
Canonical C_unitRingType := Eval hnf in UnitRingType C C_unitRingMixin.
Canonical C_comUnitRingType := Eval hnf in [comUnitRingType of C].
Lemma C_field : GRing.Field.mixin_of C_unitRingType. Proof. by []. Qed.
Canonical C_idomainType := Eval hnf in IdomainType C (FieldIdomainMixin C_field).
Canonical C_fieldType := Eval hnf in FieldType C C_field.

Lemma Cconj_additive : additive (Cconj : C -> C).
Proof. move=> x y; rewrite /GRing.add /GRing.opp /= /Cconj /Cplus /Copp /=; congr pair; lra. Qed.
Canonical Cconj_add := Eval hnf in Additive Cconj_additive.
Lemma Cconj_mult : multiplicative (Cconj : C -> C).
Proof. by split=> [x y|]; rewrite /GRing.mul /GRing.one /= /Cconj /Cmult /=; congr pair; lra. Qed.
Canonical Cconj_rmorphism := Eval hnf in AddRMorphism Cconj_mult.
Definition cjC : {rmorphism C -> C} := [rmorphism of Cconj].
