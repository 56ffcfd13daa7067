(** Order laws of times, as a premise for theorems that hold both in exact
    arithmetic and in binary64. [ok] excludes NaN. *)
From Coq Require Import QArith Qcanon.
From Verif Require Import Base Arith.

Record OrdLaws (A : Arith) : Type := {
  ok : num A -> Prop;
  leb_ok : forall x y, nleb A x y = true -> ok x /\ ok y;
  add_ok : forall x y, ok (nadd A x y) -> ok x;
  ltb_leb : forall x y, nltb A x y = true -> nleb A x y = true;
  leb_trans : forall x y z, nleb A x y = true -> nleb A y z = true -> nleb A x z = true;
  leb_total : forall x y, ok x -> ok y -> nleb A x y = true \/ nleb A y x = true;
  ltb_negb : forall x y, ok x -> ok y -> nltb A x y = negb (nleb A y x)
}.
Arguments ok {A} o.

Section OrdFacts.
  Context {A : Arith} (L : OrdLaws A).

  Lemma ltb_asym x y : ok L x -> ok L y -> nltb A x y = true -> nltb A y x = false.
  Proof.
    intros Hx Hy. rewrite !(ltb_negb A L) by assumption.
    destruct (leb_total A L x y Hx Hy) as [->|E]; [reflexivity|]. rewrite E. discriminate.
  Qed.

  Lemma nltb_le_trans x y z : ok L x -> ok L y -> ok L z ->
    nltb A y x = false -> nltb A z y = false -> nltb A z x = false.
  Proof.
    intros Hx Hy Hz. rewrite !(ltb_negb A L) by assumption. rewrite !negb_false_iff. apply (leb_trans A L).
  Qed.

  Lemma ltb_ok x y : nltb A x y = true -> ok L x /\ ok L y.
  Proof. intros H. apply (leb_ok A L), (ltb_leb A L), H. Qed.

  Lemma ltb_leb_trans x y z : nltb A x y = true -> nleb A y z = true -> nltb A x z = true.
  Proof.
    intros H1 H2. destruct (ltb_ok _ _ H1) as [Hx Hy]. destruct (leb_ok A L _ _ H2) as [_ Hz].
    rewrite (ltb_negb A L) in H1 |- * by assumption. rewrite negb_true_iff in *.
    destruct (nleb A z x) eqn:E; [|reflexivity]. rewrite (leb_trans A L y z x H2 E) in H1. discriminate.
  Qed.

  Lemma leb_ltb_trans x y z : nleb A x y = true -> nltb A y z = true -> nltb A x z = true.
  Proof.
    intros H1 H2. destruct (ltb_ok _ _ H2) as [Hy Hz]. destruct (leb_ok A L _ _ H1) as [Hx _].
    rewrite (ltb_negb A L) in H2 |- * by assumption. rewrite negb_true_iff in *.
    destruct (nleb A z x) eqn:E; [|reflexivity]. rewrite (leb_trans A L z x y E H1) in H2. discriminate.
  Qed.

  Lemma ltb_irrefl x : nltb A x x = true -> False.
  Proof.
    intros H. destruct (ltb_ok _ _ H) as [Hx _]. pose proof (ltb_asym x x Hx Hx H). congruence.
  Qed.
End OrdFacts.

(** ** Exact arithmetic *)
Lemma Qcleb_le x y : Qcleb x y = true <-> (x <= y)%Qc.
Proof. unfold Qcleb, Qcle. apply Qle_bool_iff. Qed.
Lemma Qcltb_lt x y : Qcltb x y = true <-> (x < y)%Qc.
Proof.
  unfold Qcltb. rewrite negb_true_iff, <- not_true_iff_false. fold (Qcleb y x). rewrite Qcleb_le.
  split; [apply Qcnot_le_lt|apply Qclt_not_le].
Qed.
Lemma Qcltb_ge x y : Qcltb x y = false <-> (y <= x)%Qc.
Proof. unfold Qcltb. rewrite negb_false_iff. apply Qcleb_le. Qed.
Lemma Qcleb_gt x y : Qcleb x y = false <-> (y < x)%Qc.
Proof. rewrite <- Qcltb_lt. unfold Qcltb, Qcleb. rewrite negb_true_iff. tauto. Qed.
Lemma Qceqb_eq x y : Qceqb x y = true <-> x = y.
Proof. unfold Qceqb. rewrite Qeq_bool_iff. split; [apply Qc_is_canon|intros ->; reflexivity]. Qed.

Definition QA_ord : OrdLaws QA.
Proof.
  refine {| ok := fun _ => True |}; simpl; auto; intros.
  - apply Qcleb_le. apply Qclt_le_weak, Qcltb_lt. assumption.
  - rewrite Qcleb_le in *. eapply Qcle_trans; eauto.
  - rewrite !Qcleb_le. destruct (Qclt_le_dec x y); [left; apply Qclt_le_weak; assumption|right; assumption].
Defined.
