(** The percentages printed by the mass processing functions, in binary64. *)
From Coq Require Import Reals Psatz SpecFloat.
From Flocq Require Import Core IEEE754.BinarySingleNaN.
From Verif Require Import Base Arith FloatArith FloatExtract ReprModel NumTextModel PrintModel.
Open Scope Z_scope.

Lemma rhe_near a d : 0 < d -> (Rabs (IZR (rhe a d) - IZR a / IZR d) <= / 2)%R.
Proof.
  intros Hd. pose proof (Z.div_mod a d ltac:(lia)) as E. pose proof (Z.mod_pos_bound a d Hd) as B.
  assert (D : (0 < IZR d)%R) by (apply (IZR_lt 0); lia).
  assert (K : forall t, 2 * Z.abs (t * d - a) <= d -> (Rabs (IZR t - IZR a / IZR d) <= / 2)%R).
  { intros t H. replace (IZR t - IZR a / IZR d)%R with (IZR (t * d - a) / IZR d)%R by (rewrite minus_IZR, mult_IZR; field; lra).
    unfold Rdiv. rewrite Rabs_mult, (Rabs_pos_eq (/ IZR d)), <- abs_IZR by (apply Rlt_le, Rinv_0_lt_compat, D).
    apply (Rmult_le_reg_r (IZR d)); [exact D|]. rewrite Rmult_assoc, Rinv_l, Rmult_1_r by lra.
    apply IZR_le in H. rewrite mult_IZR in H. lra. }
  apply K. unfold rhe. set (q := a / d) in *. set (r := a mod d) in *.
  destruct (2 * r <? d) eqn:H1; [apply Z.ltb_lt in H1; nia|apply Z.ltb_ge in H1].
  destruct (d <? 2 * r) eqn:H2; [apply Z.ltb_lt in H2; nia|apply Z.ltb_ge in H2].
  destruct (Z.even q); nia.
Qed.

Lemma rhe_le a d a' d' : 0 < d -> 0 < d' -> (IZR a / IZR d <= IZR a' / IZR d')%R -> rhe a d <= rhe a' d'.
Proof.
  intros Hd Hd' H.
  assert (D : (0 < IZR d)%R) by (apply (IZR_lt 0); lia). assert (D' : (0 < IZR d')%R) by (apply (IZR_lt 0); lia).
  assert (L : a * d' <= a' * d).
  { apply le_IZR. rewrite !mult_IZR. apply (Rmult_le_compat_r (IZR d * IZR d')) in H; [|apply Rlt_le, Rmult_lt_0_compat; assumption].
    replace (IZR a / IZR d * (IZR d * IZR d'))%R with (IZR a * IZR d')%R in H by (field; lra).
    replace (IZR a' / IZR d' * (IZR d * IZR d'))%R with (IZR a' * IZR d)%R in H by (field; lra). exact H. }
  pose proof (Z.div_mod a d ltac:(lia)) as E. pose proof (Z.mod_pos_bound a d Hd) as B.
  pose proof (Z.div_mod a' d' ltac:(lia)) as E'. pose proof (Z.mod_pos_bound a' d' Hd') as B'.
  unfold rhe. set (q := a / d) in *. set (r := a mod d) in *. set (q' := a' / d') in *. set (r' := a' mod d') in *.
  assert (P : 0 < d * d') by (apply Z.mul_pos_pos; lia).
  assert (L1 : (q * d + r) * d' <= (q' * d' + r') * d) by (replace (q * d + r) with a by lia; replace (q' * d' + r') with a' by lia; exact L).
  assert (L2 : 0 <= r * d') by (apply Z.mul_nonneg_nonneg; lia).
  assert (L3 : r' * d < d' * d) by (apply Z.mul_lt_mono_pos_r; lia).
  assert (Q : q <= q').
  { apply Z.lt_succ_r, (Z.mul_lt_mono_pos_r (d * d')); [exact P|]. replace (Z.succ q' * (d * d')) with (q' * d' * d + d' * d) by ring. lia. }
  assert (R1 : q = q' -> r * d' <= r' * d) by (intros Eq; rewrite Eq in L1; lia).
  destruct (Z.eq_dec q q') as [Eq|N].
  - specialize (R1 Eq). rewrite <- Eq.
    destruct (2 * r <? d) eqn:H1; destruct (2 * r' <? d') eqn:H1'; destruct (d <? 2 * r) eqn:H2; destruct (d' <? 2 * r') eqn:H2'; destruct (Z.even q);
      rewrite ?Z.ltb_lt, ?Z.ltb_ge in *; try lia; exfalso; nia.
  - destruct (2 * r <? d), (2 * r' <? d'), (d <? 2 * r), (d' <? 2 * r'), (Z.even q), (Z.even q'); lia.
Qed.

Lemma fraction_value x : is_finite x = true -> 0 < snd (fraction x) /\ (B2R x = IZR (fst (fraction x)) / IZR (snd (fraction x)))%R.
Proof.
  destruct x as [s|s| |s m e Hb]; intros F; try discriminate; cbn [fraction].
  - cbn. split; [lia|]. lra.
  - unfold B2R, F2R. cbn [Fnum Fexp]. replace (cond_Zopp s (Zpos m)) with (if s then Zneg m else Zpos m) by (destruct s; reflexivity).
    destruct (Z.leb_spec 0 e) as [H|H]; cbn [fst snd].
    + split; [lia|]. change (2 ^ e) with (Z.pow radix2 e). rewrite mult_IZR, (IZR_Zpower radix2 e) by lia. field.
    + split; [apply Z.pow_pos_nonneg; lia|]. change (2 ^ (- e)) with (Z.pow radix2 (- e)). rewrite (IZR_Zpower radix2 (- e)) by lia. rewrite bpow_opp. field. apply Rgt_not_eq, bpow_gt_0.
Qed.

Lemma tenths_near x : is_finite x = true -> (Rabs (IZR (tenths x) - 10 * B2R x) <= / 2)%R.
Proof.
  intros F. destruct (fraction_value x F) as [D E]. unfold tenths. rewrite E. destruct (fraction x) as [a d]. cbn [fst snd] in *.
  pose proof (rhe_near (10 * a) d D) as N. rewrite mult_IZR in N. replace (10 * (IZR a / IZR d))%R with (10 * IZR a / IZR d)%R; [exact N|].
  field. apply (IZR_lt 0) in D. lra.
Qed.
Lemma tenths_le x y : is_finite x = true -> is_finite y = true -> (B2R x <= B2R y)%R -> tenths x <= tenths y.
Proof.
  intros Fx Fy H. destruct (fraction_value x Fx) as [D E], (fraction_value y Fy) as [D' E']. rewrite E, E' in H. unfold tenths.
  destruct (fraction x) as [a d], (fraction y) as [a' d']. cbn [fst snd] in *. apply rhe_le; [exact D|exact D'|].
  rewrite !mult_IZR. unfold Rdiv in *. rewrite !Rmult_assoc. lra.
Qed.

Notation rnd := (Generic_fmt.round radix2 (SpecFloat.fexp 53 1024) (round_mode mode_NE)).
Lemma share_value d n : (d <= n)%nat -> 0 < Z.of_nat n < 2 ^ 46 ->
  is_finite (share d n) = true /\ B2R (share d n) = rnd (IZR (100 * Z.of_nat d) / IZR (Z.of_nat n)) /\ (0 <= IZR (100 * Z.of_nat d) / IZR (Z.of_nat n) <= 100)%R.
Proof.
  intros Hd Hn. unfold share.
  assert (N : (0 < IZR (Z.of_nat n))%R) by (apply (IZR_lt 0); lia).
  assert (Hm : Z.abs (100 * Z.of_nat d) < 2 ^ 53) by lia.
  destruct (val_ofZ 100 ltac:(lia)) as [F1 V1]. destruct (val_ofZ (Z.of_nat d) ltac:(lia)) as [F2 V2]. destruct (val_ofZ (Z.of_nat n) ltac:(lia)) as [F3 V3].
  assert (W : val (f_mul (f_ofZ 100) (f_ofZ (Z.of_nat d))) (100 * Z.of_nat d) 0).
  { apply (val_mul (f_ofZ 100) (f_ofZ (Z.of_nat d))); [|reflexivity|exact F1|exact F2|exact Hm|lia].
    rewrite V1, V2, mult_IZR. change (bpow radix2 0) with 1%R. ring. }
  destruct W as [F4 V4].
  assert (B : (0 <= IZR (100 * Z.of_nat d) / IZR (Z.of_nat n) <= 100)%R).
  { split.
    - apply Rmult_le_pos; [apply (IZR_le 0); lia|apply Rlt_le, Rinv_0_lt_compat, N].
    - apply (Rmult_le_reg_r (IZR (Z.of_nat n))); [exact N|]. unfold Rdiv. rewrite Rmult_assoc, Rinv_l, Rmult_1_r by lra.
      rewrite <- mult_IZR. apply IZR_le. lia. }
  assert (E3 : B2R (f_ofZ (Z.of_nat n)) = IZR (Z.of_nat n)) by (rewrite V3; change (bpow radix2 0) with 1%R; ring).
  pose proof (Bdiv_correct 53 1024 prec53 emax1024 mode_NE (f_mul (f_ofZ 100) (f_ofZ (Z.of_nat d))) (f_ofZ (Z.of_nat n))) as H.
  rewrite E3 in H. specialize (H ltac:(lra)).
  replace (B2R (f_mul (f_ofZ 100) (f_ofZ (Z.of_nat d))) / IZR (Z.of_nat n))%R with (IZR (100 * Z.of_nat d) / IZR (Z.of_nat n))%R in H
    by (rewrite V4; change (bpow radix2 0) with 1%R; field; lra).
  assert (R0 : (0 <= rnd (IZR (100 * Z.of_nat d) / IZR (Z.of_nat n)))%R).
  { rewrite <- (round_0 radix2 (SpecFloat.fexp 53 1024) (round_mode mode_NE)). apply round_le; [apply fexp_correct; reflexivity|apply valid_rnd_round_mode|apply B]. }
  assert (R1 : (rnd (IZR (100 * Z.of_nat d) / IZR (Z.of_nat n)) <= 100)%R).
  { destruct (exact_round 100 0 ltac:(lia) ltac:(lia)) as [X _]. change (bpow radix2 0) with 1%R in X. rewrite Rmult_1_r in X. apply Rle_trans with (rnd 100); [|rewrite X; apply Rle_refl].
    apply round_le; [apply fexp_correct; reflexivity|apply valid_rnd_round_mode|apply B]. }
  rewrite Rlt_bool_true in H.
  2: { rewrite Rabs_pos_eq by exact R0. apply Rle_lt_trans with (1 := R1). apply Rlt_le_trans with (bpow radix2 7); [simpl; lra|apply bpow_le; lia]. }
  destruct H as (H1 & H2 & _). split; [unfold f_div; rewrite H2; exact F4|]. split; [exact H1|exact B].
Qed.

Lemma share_near d n : (d <= n)%nat -> 0 < Z.of_nat n < 2 ^ 46 ->
  (Rabs (B2R (share d n) - IZR (100 * Z.of_nat d) / IZR (Z.of_nat n)) <= bpow radix2 (-46))%R.
Proof.
  intros Hd Hn. destruct (share_value d n Hd Hn) as (_ & E & B). rewrite E. set (x := (IZR (100 * Z.of_nat d) / IZR (Z.of_nat n))%R) in *.
  eapply Rle_trans; [apply error_le_half_ulp; apply fexp_correct; reflexivity|].
  apply Rle_trans with (/ 2 * ulp radix2 (SpecFloat.fexp 53 1024) (bpow radix2 7))%R.
  - apply Rmult_le_compat_l; [lra|]. apply ulp_le; [apply fexp_correct; reflexivity|apply fexp_monotone|].
    rewrite !Rabs_pos_eq; [|apply bpow_ge_0|apply B]. simpl. lra.
  - rewrite ulp_bpow. change (SpecFloat.fexp 53 1024 (7 + 1)) with (-45). simpl. lra.
Qed.

Definition shown_tenths (d n : nat) : nat := Z.to_nat (tenths (share d n)).
Lemma tenths_nonneg d n : (d <= n)%nat -> 0 < Z.of_nat n < 2 ^ 46 -> 0 <= tenths (share d n).
Proof.
  intros Hd Hn. destruct (share_value d n Hd Hn) as (F & E & B).
  pose proof (tenths_near _ F) as N. apply Rabs_le_inv in N.
  assert (P : (0 <= B2R (share d n))%R).
  { rewrite E, <- (round_0 radix2 (SpecFloat.fexp 53 1024) (round_mode mode_NE)). apply round_le; [apply fexp_correct; reflexivity|apply valid_rnd_round_mode|apply B]. }
  apply Z.lt_succ_r, lt_IZR. rewrite succ_IZR. lra.
Qed.

Lemma sapp_assoc (a b c : string) : ((a ++ b) ++ c)%string = (a ++ b ++ c)%string.
Proof. induction a as [|x a IH]; [reflexivity|]. cbn. rewrite IH. reflexivity. Qed.
Lemma percent_text d n : percent d n = (nat_text (shown_tenths d n / 10) ++ "." ++ nat_text (shown_tenths d n mod 10) ++ "%")%string.
Proof. unfold percent, fixed1. fold (shown_tenths d n). cbv zeta. rewrite !sapp_assoc. reflexivity. Qed.

Lemma percent_near d n : (d <= n)%nat -> 0 < Z.of_nat n < 2 ^ 46 -> (Rabs (INR (shown_tenths d n) - 1000 * INR d / INR n) <= / 2 + / 2 ^ 40)%R.
Proof.
  intros Hd Hn. destruct (share_value d n Hd Hn) as (F & _ & _). pose proof (tenths_near _ F) as N. pose proof (share_near d n Hd Hn) as M.
  unfold shown_tenths. rewrite INR_IZR_INZ, Z2Nat.id by (apply tenths_nonneg; assumption). rewrite !INR_IZR_INZ.
  assert (P : (0 < IZR (Z.of_nat n))%R) by (apply (IZR_lt 0); lia).
  replace (1000 * IZR (Z.of_nat d) / IZR (Z.of_nat n))%R with (10 * (IZR (100 * Z.of_nat d) / IZR (Z.of_nat n)))%R by (rewrite mult_IZR; field; lra).
  apply Rabs_le_inv in N, M. apply Rabs_le. simpl in M. simpl. lra.
Qed.

Lemma percent_le d d' n : (d <= d' <= n)%nat -> 0 < Z.of_nat n < 2 ^ 46 -> (shown_tenths d n <= shown_tenths d' n)%nat.
Proof.
  intros Hd Hn. destruct (share_value d n ltac:(lia) Hn) as (F & E & _). destruct (share_value d' n ltac:(lia) Hn) as (F' & E' & _).
  unfold shown_tenths. apply Z2Nat.inj_le; [apply tenths_nonneg; [lia|exact Hn]|apply tenths_nonneg; [lia|exact Hn]|].
  apply tenths_le; [exact F|exact F'|]. rewrite E, E'. apply round_le; [apply fexp_correct; reflexivity|apply valid_rnd_round_mode|].
  apply Rmult_le_compat_r; [apply Rlt_le, Rinv_0_lt_compat, (IZR_lt 0); lia|]. apply IZR_le. lia.
Qed.

Lemma percent_zero n : 0 < Z.of_nat n < 2 ^ 46 -> shown_tenths 0 n = 0%nat.
Proof.
  intros Hn. pose proof (percent_near 0 n ltac:(lia) Hn) as N. simpl (INR 0) in N. replace (1000 * 0 / INR n)%R with 0%R in N by (unfold Rdiv; ring).
  apply Rabs_le_inv in N. assert (H : (INR (shown_tenths 0 n) < 1)%R) by (simpl in N; lra). apply (INR_lt _ 1) in H. lia.
Qed.

Lemma percent_under d n : (d < n < 2000)%nat -> (shown_tenths d n < 1000)%nat.
Proof.
  intros H. pose proof (percent_near d n ltac:(lia) ltac:(lia)) as N. apply Rabs_le_inv in N.
  assert (P : (0 < INR n)%R) by (apply lt_0_INR; lia).
  assert (D : (INR d <= INR n - 1)%R) by (rewrite <- (Nat.sub_add 1 n) by lia; rewrite plus_INR; simpl; apply Rle_trans with (INR (n - 1)); [apply le_INR; lia|lra]).
  assert (U : (INR n <= 1999)%R). { replace 1999%R with (INR 1999) by (rewrite INR_IZR_INZ; reflexivity). apply le_INR. lia. }
  apply INR_lt. replace (INR 1000) with 1000%R by (rewrite INR_IZR_INZ; reflexivity).
  assert (Q : (1000 * INR d / INR n <= 1000 - 1000 / 1999)%R).
  { apply (Rmult_le_reg_r (INR n)); [exact P|]. unfold Rdiv at 1. rewrite Rmult_assoc, Rinv_l, Rmult_1_r by lra. nra. }
  simpl (2 ^ 40)%R in N. lra.
Qed.
