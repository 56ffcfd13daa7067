(** Time windows in binary64: exact for power-of-two rates and integer starts. *)
From Coq Require Import Reals Psatz SpecFloat.
From Flocq Require Import Core IEEE754.BinarySingleNaN.
From Verif Require Import Base BaseLemmas SliceLemmas Arith OrdLaws FloatArith TagsModel SpecTags
  SyncModel SetModel SpecSet SetProofs.
Open Scope Z_scope.

(** [x] is finite and equal to [m * 2^e] *)
Definition val (x : b64) (m e : Z) : Prop :=
  is_finite x = true /\ B2R x = (IZR m * bpow radix2 e)%R.

Lemma fexp_FLT : SpecFloat.fexp 53 1024 = FLT_exp (-1074) 53.
Proof. reflexivity. Qed.

Lemma exact_round m e : Z.abs m < 2 ^ 53 -> -1074 <= e <= 900 ->
  round radix2 (SpecFloat.fexp 53 1024) (round_mode mode_NE) (IZR m * bpow radix2 e) = (IZR m * bpow radix2 e)%R /\
  Rlt_bool (Rabs (IZR m * bpow radix2 e)) (bpow radix2 1024) = true.
Proof.
  intros Hm He. split.
  - apply round_generic; [apply valid_rnd_round_mode|]. rewrite fexp_FLT. apply generic_format_FLT.
    apply (FLT_spec radix2 (-1074) 53 _ (Float radix2 m e)); [reflexivity|exact Hm|apply He].
  - apply Rlt_bool_true. rewrite Rabs_mult, <- abs_IZR, (Rabs_pos_eq (bpow radix2 e)) by apply bpow_ge_0.
    apply Rlt_le_trans with (bpow radix2 53 * bpow radix2 e)%R.
    + apply Rmult_lt_compat_r; [apply bpow_gt_0|].
      replace (bpow radix2 53) with (IZR (2 ^ 53)) by (rewrite (IZR_Zpower radix2) by lia; reflexivity).
      apply IZR_lt. exact Hm.
    + rewrite <- bpow_plus. apply bpow_le. lia.
Qed.

Lemma val_ofZ m : Z.abs m < 2 ^ 53 -> val (f_ofZ m) m 0.
Proof.
  intros Hm. unfold val, f_ofZ.
  pose proof (binary_normalize_correct 53 1024 prec53 emax1024 mode_NE m 0 false) as H. cbv zeta in H.
  unfold F2R in H. cbn [Fnum Fexp] in H. destruct (exact_round m 0 Hm ltac:(lia)) as [E1 E2].
  rewrite E1, E2 in H. destruct H as (H1 & H2 & _). auto.
Qed.

Lemma val_div x y m k : Z.abs m < 2 ^ 53 -> -900 <= k <= 900 -> val x m 0 -> val y 1 k -> val (f_div x y) m (- k).
Proof.
  intros Hm Hk [Fx Vx] [Fy Vy]. unfold f_div.
  assert (Hy : B2R y <> 0%R). { rewrite Vy, Rmult_1_l. apply Rgt_not_eq, bpow_gt_0. }
  pose proof (Bdiv_correct 53 1024 prec53 emax1024 mode_NE x y Hy) as H.
  assert (E : (B2R x / B2R y)%R = (IZR m * bpow radix2 (- k))%R).
  { rewrite Vx, Vy, bpow_opp. simpl (bpow radix2 0). field. apply Rgt_not_eq, bpow_gt_0. }
  rewrite E in H. destruct (exact_round m (- k) Hm ltac:(lia)) as [E1 E2]. rewrite E1, E2 in H.
  destruct H as (H1 & H2 & _). split; [rewrite H2; exact Fx|exact H1].
Qed.

Lemma val_add x y r m e : (B2R x + B2R y = IZR m * bpow radix2 e)%R -> r = f_add x y ->
  is_finite x = true -> is_finite y = true -> Z.abs m < 2 ^ 53 -> -1074 <= e <= 900 -> val r m e.
Proof.
  intros E -> Fx Fy Hm He. unfold f_add.
  pose proof (Bplus_correct 53 1024 prec53 emax1024 mode_NE x y Fx Fy) as H.
  rewrite E in H. destruct (exact_round m e Hm He) as [E1 E2]. rewrite E1, E2 in H. destruct H as (H1 & H2 & _). split; assumption.
Qed.
Lemma val_sub x y r m e : (B2R x - B2R y = IZR m * bpow radix2 e)%R -> r = f_sub x y ->
  is_finite x = true -> is_finite y = true -> Z.abs m < 2 ^ 53 -> -1074 <= e <= 900 -> val r m e.
Proof.
  intros E -> Fx Fy Hm He. unfold f_sub.
  pose proof (Bminus_correct 53 1024 prec53 emax1024 mode_NE x y Fx Fy) as H.
  rewrite E in H. destruct (exact_round m e Hm He) as [E1 E2]. rewrite E1, E2 in H. destruct H as (H1 & H2 & _). split; assumption.
Qed.
Lemma val_mul x y r m e : (B2R x * B2R y = IZR m * bpow radix2 e)%R -> r = f_mul x y ->
  is_finite x = true -> is_finite y = true -> Z.abs m < 2 ^ 53 -> -1074 <= e <= 900 -> val r m e.
Proof.
  intros E -> Fx Fy Hm He. unfold f_mul.
  pose proof (Bmult_correct 53 1024 prec53 emax1024 mode_NE x y) as H.
  rewrite E in H. destruct (exact_round m e Hm He) as [E1 E2]. rewrite E1, E2, Fx, Fy in H. destruct H as (H1 & H2 & _). split; assumption.
Qed.

Lemma floor_val x n : val x n 0 -> f_floor x = Ok n.
Proof.
  intros [F H]. simpl (bpow radix2 0) in H. rewrite Rmult_1_r in H. destruct x as [s|s| |s m e He]; try discriminate; simpl in *.
  - apply eq_IZR in H. congruence.
  - f_equal. change (cond_Zopp s (Zpos m)) with (if s then Zneg m else Zpos m) in H.
    set (z := if s then Zneg m else Zpos m) in *. unfold F2R in H. simpl in H.
    destruct (Z.leb_spec 0 e) as [L|L].
    + change 2 with (radix2 : Z). rewrite <- (IZR_Zpower radix2 e L), <- mult_IZR in H. apply eq_IZR in H. exact H.
    + assert (E : z = n * 2 ^ (- e)).
      { apply eq_IZR. rewrite mult_IZR. change 2 with (radix2 : Z). rewrite (IZR_Zpower radix2) by lia. rewrite <- H, Rmult_assoc, <- bpow_plus.
        replace (e + - e) with 0 by lia. simpl. ring. }
      rewrite E. apply Z.div_mul. apply Z.pow_nonzero; lia.
Qed.
Lemma ceil_val x n : val x n 0 -> f_ceil x = Ok n.
Proof.
  intros [F H]. unfold f_ceil. rewrite (floor_val (Bopp x) (- n)); [f_equal; lia|]. split.
  - rewrite is_finite_Bopp. exact F.
  - rewrite B2R_Bopp, H, opp_IZR. ring.
Qed.

Lemma fmax_R (x y : b64) : is_finite x = true -> is_finite y = true -> 
  is_finite (@pmax FA x y) = true /\ B2R (@pmax FA x y) = Rmax (B2R x) (B2R y).
Proof.
  intros Fx Fy. unfold pmax. simpl nltb. rewrite (Bltb_correct 53 1024 x y Fx Fy). destruct (Rlt_bool_spec (B2R x) (B2R y)) as [H|H].
  - split; [exact Fy|]. rewrite Rmax_right; lra.
  - split; [exact Fx|]. rewrite Rmax_left; lra.
Qed.
Lemma fmin_R (x y : b64) : is_finite x = true -> is_finite y = true -> 
  is_finite (@pmin FA x y) = true /\ B2R (@pmin FA x y) = Rmin (B2R x) (B2R y).
Proof.
  intros Fx Fy. unfold pmin. simpl nltb. rewrite (Bltb_correct 53 1024 y x Fy Fx). destruct (Rlt_bool_spec (B2R y) (B2R x)) as [H|H].
  - split; [exact Fy|]. rewrite Rmin_right; lra.
  - split; [exact Fx|]. rewrite Rmin_left; lra.
Qed.

Lemma rate_nonzero x k : val x 1 k -> @Beqb 53 1024 x (B754_zero false) = false.
Proof.
  intros [F H]. rewrite (Beqb_correct 53 1024) by (assumption || reflexivity). apply Req_bool_false. rewrite H, Rmult_1_l. simpl.
  apply Rgt_not_eq, bpow_gt_0.
Qed.

(** starting again at the first sample does not change the start *)
Lemma start_zero m (rate : b64) k : Z.abs m < 2 ^ 53 -> -900 <= k <= 900 -> val rate 1 k ->
  f_add (f_ofZ m) (f_div (f_ofZ 0) rate) = f_ofZ m.
Proof.
  intros Hm Hk Hr. pose proof (val_ofZ m Hm) as V. pose proof (val_ofZ 0 ltac:(lia)) as V0.
  pose proof (val_div _ _ 0 k ltac:(lia) Hk V0 Hr) as [FD D].
  pose proof (Bplus_correct 53 1024 prec53 emax1024 mode_NE (f_ofZ m) (f_div (f_ofZ 0) rate) (proj1 V) FD) as H.
  destruct V as [FV V]. rewrite V, D in H. replace (IZR m * bpow radix2 0 + 0 * bpow radix2 (- k))%R with (IZR m * bpow radix2 0)%R in H by ring.
  destruct (exact_round m 0 Hm ltac:(lia)) as [E1 E2]. rewrite E1, E2 in H. destruct H as (H1 & H2 & H3).
  apply (B2R_Bsign_inj 53 1024); [exact H2|exact FV| |].
  - unfold f_add. rewrite H1, V. reflexivity.
  - unfold f_add. rewrite H3.
    pose proof (binary_normalize_correct 53 1024 prec53 emax1024 mode_NE m 0 false) as N. cbv zeta in N.
    unfold F2R in N. cbn [Fnum Fexp] in N. rewrite E1, E2 in N. destruct N as (_ & _ & N). fold (f_ofZ m) in N. rewrite N.
    destruct (Rcompare (IZR m * bpow radix2 0) 0); [apply andb_false_l|reflexivity|reflexivity].
Qed.

Section FE.
Context {V K : Type} (kone : K).
Notation sync := (sync FA V K).

Theorem extract_full_b64 (s : sync) m k : sync_ok s -> 0 < Z.of_nat (s_size s) < 2 ^ 31 ->
  s_start s = f_ofZ m -> Z.abs m < 2 ^ 32 -> val (s_rate s) 1 k -> -20 <= k <= 20 ->
  exists stop, s_stop s = Ok stop /\ sync_extract_t kone s (s_start s) stop false = Ok s.
Proof.
  intros Hs Hn Hst Hm Hr Hk.
  set (N := Z.of_nat (s_size s) - 1).
  set (stop := f_add (s_start s) (f_div (f_ofZ N) (s_rate s))).
  assert (Hrz : neqb FA (s_rate s) (nzero FA) = false) by (apply (rate_nonzero _ k), Hr).
  assert (Hstop : s_stop s = Ok stop).
  { apply (proj2 (s_stop_last s stop)). split; [exact Hrz|reflexivity]. }
  exists stop. split; [exact Hstop|].
  assert (HN : 0 <= N < 2 ^ 31) by (unfold N; lia).
  pose proof (val_ofZ m ltac:(lia)) as VM. pose proof (val_ofZ N ltac:(lia)) as VN.
  pose proof (val_div _ _ N k ltac:(lia) ltac:(lia) VN Hr) as [FD VD].
  set (e0 := Z.min 0 (- k)). set (M := m * 2 ^ (- e0) + N * 2 ^ (- k - e0)).
  assert (HM : Z.abs M < 2 ^ 53).
  { unfold M, e0. destruct (Z_le_gt_dec 0 k).
    - replace (Z.min 0 (- k)) with (- k) by lia. replace (- k - - k) with 0 by lia. rewrite Z.opp_involutive, Z.pow_0_r.
      assert (P : 0 < 2 ^ k <= 2 ^ 20) by (split; [apply Z.pow_pos_nonneg; lia|apply Z.pow_le_mono_r; lia]). nia.
    - replace (Z.min 0 (- k)) with 0 by lia. replace (- k - 0) with (- k) by lia. simpl (2 ^ - 0).
      assert (P : 0 < 2 ^ (- k) <= 2 ^ 20) by (split; [apply Z.pow_pos_nonneg; lia|apply Z.pow_le_mono_r; lia]). nia. }
  assert (ER : (B2R (f_ofZ m) + B2R (f_div (f_ofZ N) (s_rate s)) = IZR M * bpow radix2 e0)%R).
  { rewrite (proj2 VM), VD. unfold M. rewrite plus_IZR, !mult_IZR. change 2 with (radix2 : Z).
    rewrite !(IZR_Zpower radix2) by (unfold e0; lia). rewrite Rmult_plus_distr_r, !Rmult_assoc, <- !bpow_plus.
    replace (- e0 + e0) with 0 by lia. replace (- k - e0 + e0) with (- k) by lia. reflexivity. }
  assert (VS : val stop M e0).
  { eapply (val_add (f_ofZ m)); [exact ER|unfold stop; rewrite Hst; reflexivity|apply VM|exact FD|exact HM|unfold e0; lia]. }
  assert (Fs : is_finite (s_start s) = true) by (rewrite Hst; apply VM).
  assert (Rs : B2R (s_start s) = IZR m) by (rewrite Hst, (proj2 VM); simpl; ring).
  destruct VS as [FS VS].
  assert (Rle : (IZR m <= B2R stop)%R).
  { rewrite VS, <- ER. rewrite (proj2 VM), VD. simpl (bpow radix2 0).
    assert (0 <= IZR N * bpow radix2 (- k))%R; [|lra]. apply Rmult_le_pos; [apply IZR_le; lia|apply bpow_ge_0]. }
  (* clipped bounds *)
  destruct (fmax_R (s_start s) (s_start s) Fs Fs) as [Fa1 Ra1].
  destruct (fmin_R stop _ FS Fa1) as [Fa Ra]. rewrite Ra1, Rs, Rmax_left, Rmin_right in Ra by lra.
  destruct (fmax_R (s_start s) stop Fs FS) as [Fb1 Rb1].
  destruct (fmin_R stop _ FS Fb1) as [Fb Rb]. rewrite Rb1, Rs, (Rmax_right _ _ Rle), Rmin_left in Rb by lra.
  set (a' := @pmin FA stop (@pmax FA (s_start s) (s_start s))) in *.
  set (b' := @pmin FA stop (@pmax FA (s_start s) stop)) in *.
  assert (I0 : time_to_index s a' true = Ok 0).
  { unfold time_to_index. apply ceil_val.
    assert (V0 : val (f_sub a' (s_start s)) 0 0).
    { eapply val_sub; [|reflexivity|exact Fa|exact Fs|lia|lia]. rewrite Ra, Rs. ring. }
    apply (val_mul (f_sub a' (s_start s)) (s_rate s)); [|reflexivity|apply V0|apply Hr|lia|lia]. rewrite (proj2 V0). ring. }
  assert (I1 : time_to_index s b' false = Ok N).
  { unfold time_to_index. apply floor_val.
    assert (V1 : val (f_sub b' (s_start s)) N (- k)).
    { eapply val_sub; [|reflexivity|exact Fb|exact Fs|lia|lia]. rewrite Rb, Rs, VS, <- ER, VD, (proj2 VM). simpl (bpow radix2 0). ring. }
    apply (val_mul (f_sub b' (s_start s)) (s_rate s)); [|reflexivity|apply V1|apply Hr|lia|lia]. rewrite (proj2 V1), (proj2 Hr).
    replace (IZR N * bpow radix2 (- k) * (1 * bpow radix2 k))%R with (IZR N * (bpow radix2 (- k) * bpow radix2 k))%R by ring.
    rewrite <- bpow_plus. f_equal. f_equal. lia. }
  unfold sync_extract_t. rewrite Hstop. cbn [bind]. fold a' b'. rewrite I0, I1. cbn [bind].
  unfold extract_i. cbn [negb orb check bind]. unfold index_to_time. cbn [Z.ltb Z.compare]. rewrite Hrz. cbn [bind].
  replace (nadd FA (s_start s) (ndiv FA (nofZ FA 0) (s_rate s))) with (s_start s).
  2:{ simpl. rewrite Hst. symmetry. apply (start_zero m _ k); [lia|lia|exact Hr]. }
  replace (map (fun e => py_slice1 e 0 (N + 1)) (s_data s)) with (s_data s).
  - apply sync_new_self, Hs.
  - rewrite <- (map_id (s_data s)) at 1. apply map_ext_in. intros e He. unfold py_slice1, norm_index.
    pose proof (so_size _ Hs e He) as Hl. destruct (Z.ltb_spec 0 0); [lia|]. destruct (Z.ltb_spec (N + 1) 0); [lia|].
    replace (Z.to_nat (Z.min 0 (Z.of_nat (length e)))) with 0%nat by lia. rewrite Nat.sub_0_r. cbn [skipn].
    replace (Z.to_nat (Z.min (N + 1) (Z.of_nat (length e)))) with (length e) by (unfold N; lia). symmetry. apply firstn_all.
Qed.
End FE.
