(** Exact arithmetic: linear reasoning on [Qc] and the link between times and
    sample numbers. *)
From Coq Require Import QArith Qcanon Qround Lqa.
From Verif Require Import Base Arith OrdLaws.

Lemma this_add a b : (this (a + b)%Qc == this a + this b)%Q.
Proof. apply Qred_correct. Qed.
Lemma this_mul a b : (this (a * b)%Qc == this a * this b)%Q.
Proof. apply Qred_correct. Qed.
Lemma this_opp a : (this (- a)%Qc == - this a)%Q.
Proof. apply Qred_correct. Qed.
Lemma this_sub a b : (this (a - b)%Qc == this a - this b)%Q.
Proof. unfold Qcminus. rewrite this_add, this_opp. reflexivity. Qed.
Lemma this_inv a : (this (/ a)%Qc == / this a)%Q.
Proof. apply Qred_correct. Qed.
Lemma this_div a b : (this (a / b)%Qc == this a / this b)%Q.
Proof. unfold Qcdiv. rewrite this_mul, this_inv. reflexivity. Qed.
Lemma this_Z z : (this (ZtoQc z) == inject_Z z)%Q.
Proof. apply Qred_correct. Qed.
Lemma this_Q q : (this (Q2Qc q) == q)%Q.
Proof. apply Qred_correct. Qed.
Lemma Qc_eq_this (x y : Qc) : x = y <-> (this x == this y)%Q.
Proof. split; [intros ->; reflexivity|apply Qc_is_canon]. Qed.

Ltac qc_in_hyps := repeat match goal with
  | H : @eq Qc _ _ |- _ => rewrite Qc_eq_this in H
  | H : @eq (num QA) _ _ |- _ => change (num QA) with Qc in H; rewrite Qc_eq_this in H
  end.
Ltac qc_goal := match goal with
  | |- @eq Qc _ _ => apply Qc_eq_this
  | |- @eq (num QA) _ _ => change (num QA) with Qc; apply Qc_eq_this
  | _ => idtac end.
(** linear goals about Qc *)
Ltac qlra :=
  qc_in_hyps; qc_goal; unfold Qcle, Qclt in *;
  rewrite ?this_add, ?this_mul, ?this_sub, ?this_opp, ?this_Z, ?this_Q in *; lra.

Lemma ZtoQc_le a b : (ZtoQc a <= ZtoQc b)%Qc <-> (a <= b)%Z.
Proof. unfold Qcle. rewrite !this_Z, <- Zle_Qle. reflexivity. Qed.
Lemma ZtoQc_lt a b : (ZtoQc a < ZtoQc b)%Qc <-> (a < b)%Z.
Proof. unfold Qclt. rewrite !this_Z, <- Zlt_Qlt. reflexivity. Qed.
Lemma ZtoQc_inj a b : ZtoQc a = ZtoQc b -> a = b.
Proof. intros H. apply Z.le_antisymm; apply ZtoQc_le; rewrite H; apply Qcle_refl. Qed.
Lemma ZtoQc_add a b : ZtoQc (a + b) = (ZtoQc a + ZtoQc b)%Qc.
Proof. apply Qc_is_canon. rewrite this_add, !this_Z, inject_Z_plus. reflexivity. Qed.
Lemma ZtoQc_sub a b : ZtoQc (a - b) = (ZtoQc a - ZtoQc b)%Qc.
Proof. apply Qc_is_canon. rewrite this_sub, !this_Z. unfold Z.sub. rewrite inject_Z_plus, inject_Z_opp. reflexivity. Qed.
Lemma ZtoQc_mul a b : ZtoQc (a * b) = (ZtoQc a * ZtoQc b)%Qc.
Proof. apply Qc_is_canon. rewrite this_mul, !this_Z, inject_Z_mult. reflexivity. Qed.
Lemma ZtoQc_0 : ZtoQc 0 = Q2Qc 0. Proof. reflexivity. Qed.
Lemma ZtoQc_1 : ZtoQc 1 = Q2Qc 1. Proof. reflexivity. Qed.

(** floor and ceiling *)
Lemma Qcfloor_le z x : (z <= Qcfloor x)%Z <-> (ZtoQc z <= x)%Qc.
Proof.
  unfold Qcfloor, Qcle. rewrite this_Z. split; intros H.
  - eapply Qle_trans; [|apply Qfloor_le]. rewrite <- Zle_Qle. exact H.
  - apply Qfloor_resp_le in H. rewrite Qfloor_Z in H. exact H.
Qed.
Lemma Qcceil_le z x : (Qcceil x <= z)%Z <-> (x <= ZtoQc z)%Qc.
Proof.
  unfold Qcceil, Qcle. rewrite this_Z. split; intros H.
  - eapply Qle_trans; [apply Qle_ceiling|]. rewrite <- Zle_Qle. exact H.
  - apply Qceiling_resp_le in H. rewrite Qceiling_Z in H. exact H.
Qed.
Lemma Qcfloor_lt z x : (Qcfloor x < z)%Z <-> (x < ZtoQc z)%Qc.
Proof.
  pose proof (Qcfloor_le z x) as H. split; intros G.
  - apply Qcnot_le_lt. intros E. apply H in E. lia.
  - destruct (Z_lt_ge_dec (Qcfloor x) z) as [|E]; [assumption|]. exfalso.
    apply Z.ge_le, H, Qcle_not_lt in E. apply E, G.
Qed.
Lemma Qcceil_lt z x : (z < Qcceil x)%Z <-> (ZtoQc z < x)%Qc.
Proof.
  pose proof (Qcceil_le z x) as H. split; intros G.
  - apply Qcnot_le_lt. intros E. apply H in E. lia.
  - destruct (Z_lt_ge_dec z (Qcceil x)) as [|E]; [assumption|]. exfalso.
    apply Z.ge_le, H, Qcle_not_lt in E. apply E, G.
Qed.
Lemma Qcfloor_Z z : Qcfloor (ZtoQc z) = z.
Proof. apply Z.le_antisymm; [apply ZtoQc_le, Qcfloor_le; lia|apply Qcfloor_le, Qcle_refl]. Qed.
Lemma Qcceil_Z z : Qcceil (ZtoQc z) = z.
Proof. apply Z.le_antisymm; [apply Qcceil_le, Qcle_refl|apply ZtoQc_le, Qcceil_le; lia]. Qed.

(** times and sample numbers for a positive rate *)
Definition pos (r : Qc) : Prop := (Q2Qc 0 < r)%Qc.
Lemma pos_neq r : pos r -> r <> Q2Qc 0.
Proof. intros H ->. revert H. apply Qcle_not_lt, Qcle_refl. Qed.
Lemma pos_eqb r : pos r -> Qceqb r (Q2Qc 0) = false.
Proof. intros H. destruct (Qceqb r (Q2Qc 0)) eqn:E; [|reflexivity]. apply Qceqb_eq in E. destruct (pos_neq r H E). Qed.

Lemma mul_le_iff r x y : pos r -> (x * r <= y * r)%Qc <-> (x <= y)%Qc.
Proof.
  intros H. split; [apply Qcmult_lt_0_le_reg_r, H|]. intros G. apply Qcmult_le_compat_r; [exact G|]. apply Qclt_le_weak, H.
Qed.
Lemma div_mul r x : pos r -> (x / r * r)%Qc = x.
Proof. intros H. field. apply pos_neq, H. Qed.
Lemma mul_div r x : pos r -> (x * r / r)%Qc = x.
Proof. intros H. field. apply pos_neq, H. Qed.

Lemma time_le_iff s r t i : pos r -> (t <= s + ZtoQc i / r)%Qc <-> ((t - s) * r <= ZtoQc i)%Qc.
Proof.
  intros H. rewrite <- (mul_le_iff r t) by exact H.
  replace ((s + ZtoQc i / r) * r)%Qc with (s * r + ZtoQc i)%Qc by (field; apply pos_neq, H).
  replace ((t - s) * r)%Qc with (t * r - s * r)%Qc by ring.
  generalize (t * r)%Qc (s * r)%Qc. intros a b. split; intros; qlra.
Qed.
Lemma time_ge_iff s r t i : pos r -> (s + ZtoQc i / r <= t)%Qc <-> (ZtoQc i <= (t - s) * r)%Qc.
Proof.
  intros H. rewrite <- (mul_le_iff r _ t) by exact H.
  replace ((s + ZtoQc i / r) * r)%Qc with (s * r + ZtoQc i)%Qc by (field; apply pos_neq, H).
  replace ((t - s) * r)%Qc with (t * r - s * r)%Qc by ring.
  generalize (t * r)%Qc (s * r)%Qc. intros a b. split; intros; qlra.
Qed.
Lemma time_mono s r i j : pos r -> (s + ZtoQc i / r <= s + ZtoQc j / r)%Qc <-> (i <= j)%Z.
Proof.
  intros H. rewrite time_ge_iff by exact H.
  replace ((s + ZtoQc j / r - s) * r)%Qc with (ZtoQc j) by (field; apply pos_neq, H). apply ZtoQc_le.
Qed.
Lemma time_mono_lt s r i j : pos r -> (s + ZtoQc i / r < s + ZtoQc j / r)%Qc <-> (i < j)%Z.
Proof.
  intros H. pose proof (time_mono s r j i H) as M. split; intros G.
  - destruct (Z_lt_ge_dec i j) as [|E]; [assumption|]. exfalso. apply Z.ge_le, M in E. apply Qcle_not_lt in E. auto.
  - apply Qcnot_le_lt. intros E. apply M in E. lia.
Qed.
Lemma time_shift s r i j : pos r -> (s + ZtoQc i / r + ZtoQc j / r)%Qc = (s + ZtoQc (i + j) / r)%Qc.
Proof. intros H. rewrite ZtoQc_add. field. apply pos_neq, H. Qed.
Lemma time_0 s r : (s + ZtoQc 0 / r)%Qc = s.
Proof. rewrite ZtoQc_0. unfold Qcdiv. ring. Qed.
