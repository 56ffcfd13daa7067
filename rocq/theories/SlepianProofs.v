(** The Slepian window. *)
From Coq Require Import QArith Qcanon.
From Verif Require Import Base BaseLemmas SliceLemmas Arith OrdLaws QcLemmas SlepianModel.
Open Scope nat_scope.

Lemma nq_pos n : n <> 0 -> pos (nq n).
Proof. intros H. unfold pos, nq. rewrite <- ZtoQc_0. apply ZtoQc_lt. lia. Qed.
Lemma nq_neq n : n <> 0 -> nq n <> Q2Qc 0.
Proof. intros H. apply pos_neq, nq_pos, H. Qed.
Lemma nq_mul a b : nq (a * b) = (nq a * nq b)%Qc.
Proof. unfold nq. rewrite Nat2Z.inj_mul. apply ZtoQc_mul. Qed.
Lemma nq_S a : nq (S a) = (nq a + Q2Qc 1)%Qc.
Proof. unfold nq. rewrite Nat2Z.inj_succ. unfold Z.succ. rewrite ZtoQc_add. reflexivity. Qed.
Lemma nq_lt a b : (nq a < nq b)%Qc <-> a < b.
Proof. unfold nq. rewrite ZtoQc_lt. lia. Qed.
Lemma nq_le a b : (nq a <= nq b)%Qc <-> a <= b.
Proof. unfold nq. rewrite ZtoQc_le. lia. Qed.

Lemma Qcltb_lt x y : Qcltb x y = true <-> (x < y)%Qc.
Proof.
  unfold Qcltb. destruct (Qle_bool (this y) (this x)) eqn:E; simpl.
  - apply Qle_bool_iff in E. split; [discriminate|]. intros H. exfalso. exact (Qle_not_lt _ _ E H).
  - split; [intros _|reflexivity]. apply Qnot_le_lt. intros H. apply Qle_bool_iff in H. congruence.
Qed.

Lemma pos_cmp N M n k : M <> 0 -> Qcltb (nq n) (nq N / nq M * nq k)%Qc = (n * M <? k * N).
Proof.
  intros HM. apply eq_true_iff_eq. rewrite Qcltb_lt, Nat.ltb_lt, <- nq_lt, !nq_mul.
  assert (P := nq_pos M HM). split; intros H.
  - assert (L := Qcmult_lt_compat_r _ _ (nq M) P H). replace (nq N / nq M * nq k * nq M)%Qc with (nq k * nq N)%Qc in L; [exact L|].
    field. apply nq_neq, HM.
  - apply Qcnot_le_lt. intros H2. apply (mul_le_iff (nq M) _ _ P) in H2. replace (nq N / nq M * nq k * nq M)%Qc with (nq k * nq N)%Qc in H2 by (field; apply nq_neq, HM).
    exact (Qcle_not_lt _ _ H2 H).
Qed.

Lemma segment N M k u w x : M <> 0 -> N <> 0 ->
  ((w - u) / (nq N / nq M * nq (S k) - nq N / nq M * nq k) * (x - nq N / nq M * nq k) + u = u + (w - u) * (x * nq M / nq N - nq k))%Qc.
Proof.
  intros HM HN. rewrite nq_S. assert (H1 := nq_neq M HM). assert (H2 := nq_neq N HN).
  replace (nq N / nq M * (nq k + Q2Qc 1) - nq N / nq M * nq k)%Qc with (nq N / nq M)%Qc by (field; exact H1).
  field. split; assumption.
Qed.

Lemma interp_from_spec N M n : M <> 0 -> N <> 0 -> forall rest j v,
  j * N <= n * M ->
  (forall k u w, j <= k -> k * N <= n * M < S k * N -> nth_error (v :: rest) (k - j) = Some u -> nth_error (v :: rest) (S k - j) = Some w ->
    interp_from (nq n) (nq N / nq M * nq j)%Qc v (combine (map (fun k => (nq N / nq M * nq k)%Qc) (seq (S j) (length rest))) rest) = (u + (w - u) * (nq n * nq M / nq N - nq k))%Qc) /\
  (forall u, (j + length rest) * N <= n * M -> nth_error (v :: rest) (length rest) = Some u ->
    interp_from (nq n) (nq N / nq M * nq j)%Qc v (combine (map (fun k => (nq N / nq M * nq k)%Qc) (seq (S j) (length rest))) rest) = u).
Proof.
  intros HM HN. induction rest as [|v' rest IH]; intros j v Hj.
  - split.
    + intros k u w Hk [H1 H2] Hu Hw. replace (S k - j) with (S (k - j)) in Hw by lia. simpl in Hw. destruct (k - j); discriminate.
    + intros u _ [= <-]. reflexivity.
  - cbn [length seq map combine interp_from]. rewrite (pos_cmp N M n (S j) HM).
    destruct (Nat.ltb_spec (n * M) (S j * N)) as [Hlt|Hge].
    + split.
      * intros k u w Hk [H1 H2] Hu Hw. assert (k = j). { destruct (Nat.eq_dec k j); [assumption|]. assert (S j <= k) by lia. nia. } subst k.
        rewrite Nat.sub_diag in Hu. replace (S j - j) with 1 in Hw by lia. injection Hu as <-. injection Hw as <-. apply segment; assumption.
      * intros u Hu _. exfalso. nia.
    + destruct (IH (S j) v' Hge) as [I1 I2]. split.
      * intros k u w Hk [H1 H2] Hu Hw. assert (S j <= k). { destruct (Nat.eq_dec k j); [subst; lia|lia]. }
        replace (k - j) with (S (k - S j)) in Hu by lia. replace (S k - j) with (S (S k - S j)) in Hw by lia.
        apply I1; [assumption|split; assumption|exact Hu|exact Hw].
      * intros u Hu Hv. apply I2; [|exact Hv]. replace (S j + length rest) with (j + S (length rest)) by lia. exact Hu.
Qed.

Lemma interp_ok N M ref : M <> 0 -> length ref = M -> exists r, slepian_interp N M ref = Ok r.
Proof.
  intros HM HL. unfold slepian_interp. destruct (Nat.eqb_spec M 0); [lia|]. cbn [negb check bind]. cbv zeta.
  apply mapM_ok_exists. intros i Hi. unfold np_interp. rewrite map_length, seq_length, HL, Nat.eqb_refl. cbn [check bind].
  destruct M as [|M]; [lia|]. destruct ref as [|v ref]; [discriminate|]. cbn [seq map combine]. eexists. reflexivity.
Qed.

Theorem interp_spec N M ref r : slepian_interp N M ref = Ok r -> length ref = M ->
  length r = N /\ forall n v, nth_error r n = Some v ->
    (forall k u w, k * N <= n * M < S k * N -> nth_error ref k = Some u -> nth_error ref (S k) = Some w ->
       v = (u + (w - u) * (nq n * nq M / nq N - nq k))%Qc) /\
    (forall u, (M - 1) * N <= n * M -> nth_error ref (M - 1) = Some u -> v = u).
Proof.
  intros H HL. unfold slepian_interp in H. apply bind_ok in H as ([] & HM & H). apply check_ok, negb_true_iff, Nat.eqb_neq in HM. cbv zeta in H.
  apply mapM_Forall2 in H. split; [rewrite <- (Forall2_len _ _ _ H), seq_length; reflexivity|]. intros n v Hv.
  destruct (Forall2_nth_error_r _ _ _ _ _ H Hv) as (n' & Hn & E). rewrite nth_error_seq in Hn.
  destruct (Nat.ltb_spec n N) as [HnN|]; [|discriminate]. injection Hn as <-.
  unfold np_interp in E. rewrite map_length, seq_length, HL, Nat.eqb_refl in E. cbn [check bind] in E.
  destruct ref as [|v0 rest]; [simpl in HL; lia|]. destruct M as [|M]; [lia|]. simpl in HL. injection HL as HL.
  cbn [seq map combine] in E. rewrite (pos_cmp N (S M) n 0 HM) in E. simpl (0 * N) in E. destruct (Nat.ltb_spec (n * S M) 0); [lia|].
  injection E as E. assert (HN : N <> 0) by lia.
  destruct (interp_from_spec N (S M) n HM HN rest 0 v0 ltac:(lia)) as [I1 I2]. rewrite HL in I1, I2. rewrite E in I1, I2. split.
  - intros k u w Hk Hu Hw. apply I1; [lia|exact Hk| |]; rewrite Nat.sub_0_r; assumption.
  - intros u Hu Hx. replace (S M - 1) with M in * by lia. apply I2; [exact Hu|exact Hx].
Qed.

(** between two neighbouring values *)
Lemma Qcmult_nonneg (a b : Qc) : (Q2Qc 0 <= a)%Qc -> (Q2Qc 0 <= b)%Qc -> (Q2Qc 0 <= a * b)%Qc.
Proof. intros Ha Hb. replace (Q2Qc 0) with (Q2Qc 0 * b)%Qc by ring. apply Qcmult_le_compat_r; assumption. Qed.

Lemma Qcplus_nonneg (a b : Qc) : (Q2Qc 0 <= a)%Qc -> (Q2Qc 0 <= b)%Qc -> (Q2Qc 0 <= a + b)%Qc.
Proof. intros Ha Hb. pose proof (Qcplus_le_compat _ _ _ _ Ha Hb) as H. replace (Q2Qc 0 + Q2Qc 0)%Qc with (Q2Qc 0) in H by ring. exact H. Qed.

Lemma Qcle_sub (a b : Qc) : (a <= b)%Qc <-> (Q2Qc 0 <= b - a)%Qc.
Proof. apply Qcle_minus_iff. Qed.

Lemma Qcinv_pos (a : Qc) : pos a -> (Q2Qc 0 < / a)%Qc.
Proof.
  intros H. apply Qcnot_le_lt. intros L. assert (N := pos_neq a H). pose proof (Qcmult_le_compat_r _ _ a L (Qclt_le_weak _ _ H)) as C.
  rewrite (Qcmult_comm (/ a)%Qc), (Qcmult_inv_r a N), Qcmult_0_l in C. apply (Qcle_not_lt _ _ C). reflexivity.
Qed.

Lemma convex (lo hi u w t : Qc) : (lo <= u <= hi)%Qc -> (lo <= w <= hi)%Qc -> (Q2Qc 0 <= t <= Q2Qc 1)%Qc -> (lo <= u + (w - u) * t <= hi)%Qc.
Proof.
  intros [U1 U2] [W1 W2] [T1 T2]. apply Qcle_sub in U1, U2, W1, W2, T1, T2. split; apply Qcle_sub.
  - replace (u + (w - u) * t - lo)%Qc with ((u - lo) * (Q2Qc 1 - t) + (w - lo) * t)%Qc by ring.
    refine (Qcplus_nonneg _ _ _ _); refine (Qcmult_nonneg _ _ _ _); try assumption.
    replace (t - Q2Qc 0)%Qc with t in T1 by ring. exact T1.
  - replace (hi - (u + (w - u) * t))%Qc with ((hi - u) * (Q2Qc 1 - t) + (hi - w) * t)%Qc by ring.
    refine (Qcplus_nonneg _ _ _ _); refine (Qcmult_nonneg _ _ _ _); try assumption.
    replace (t - Q2Qc 0)%Qc with t in T1 by ring. exact T1.
Qed.

Theorem interp_bounds N M ref r lo hi : slepian_interp N M ref = Ok r -> length ref = M -> (forall u, In u ref -> lo <= u <= hi)%Qc ->
  forall v, In v r -> (lo <= v <= hi)%Qc.
Proof.
  intros H HL B v Hv. destruct (interp_spec N M ref r H HL) as [EN S]. destruct (In_nth_error _ _ Hv) as (n & Hn).
  destruct (S n v Hn) as [S1 S2]. assert (HnN : n < N) by (rewrite <- EN; apply nth_error_Some; congruence).
  assert (HM : M <> 0). { intros ->. unfold slepian_interp in H. discriminate. }
  destruct (Nat.le_gt_cases ((M - 1) * N) (n * M)) as [Hb|Hb].
  - destruct (nth_error ref (M - 1)) as [u|] eqn:E; [|apply nth_error_None in E; lia]. rewrite (S2 u Hb eq_refl). apply B, (nth_error_In _ _ E).
  - assert (K : exists k, k * N <= n * M < (k + 1) * N /\ k + 1 < M).
    { exists (n * M / N). assert (N <> 0) by lia. pose proof (Nat.div_mod (n * M) N H0). pose proof (Nat.mod_upper_bound (n * M) N H0).
      assert (n * M / N * N <= n * M < (n * M / N + 1) * N) by lia. split; [assumption|]. destruct (Nat.lt_ge_cases (n * M / N + 1) M); [assumption|]. nia. }
    destruct K as (k & Hk & Hk2). rewrite Nat.add_1_r in Hk, Hk2.
    destruct (nth_error ref k) as [u|] eqn:E1; [|apply nth_error_None in E1; lia].
    destruct (nth_error ref (Datatypes.S k)) as [w|] eqn:E2; [|apply nth_error_None in E2; lia].
    rewrite (S1 k u w Hk E1 E2). apply convex; [apply B, (nth_error_In _ _ E1)|apply B, (nth_error_In _ _ E2)|].
    assert (HN : N <> 0) by lia. assert (P := nq_pos N HN). destruct Hk as [H1 H2].
    split; apply Qcle_sub.
    + replace (nq n * nq M / nq N - nq k - Q2Qc 0)%Qc with ((nq (n * M) - nq (k * N)) / nq N)%Qc by (rewrite !nq_mul; field; apply nq_neq, HN).
      refine (Qcmult_nonneg _ _ _ _); [apply -> Qcle_sub; apply nq_le, H1|]. apply Qclt_le_weak. apply Qcinv_pos. exact P.
    + replace (Q2Qc 1 - (nq n * nq M / nq N - nq k))%Qc with ((nq (Datatypes.S k * N) - nq (n * M)) / nq N)%Qc by (rewrite !nq_mul, nq_S; field; apply nq_neq, HN).
      refine (Qcmult_nonneg _ _ _ _); [apply -> Qcle_sub; apply nq_le; lia|]. apply Qclt_le_weak. apply Qcinv_pos. exact P.
Qed.

Section S.
Variable dpss : nat -> list Qc.

Lemma direct_length N : length (dpss N) = N -> length (slepian_direct dpss N) = N.
Proof. intros H. unfold slepian_direct. rewrite map_length. exact H. Qed.

Lemma qsum_div l c : qsum (map (fun v => v / c)%Qc l) = (qsum l / c)%Qc.
Proof.
  induction l as [|x l IH]; [simpl; unfold Qcdiv; ring|]. unfold qsum in *. cbn [map fold_right]. rewrite IH. unfold Qcdiv. ring.
Qed.

Theorem direct_mean N : N <> 0 -> length (dpss N) = N -> qsum (dpss N) <> Q2Qc 0 -> qmean (slepian_direct dpss N) = Q2Qc 1.
Proof.
  intros HN HL HS. unfold qmean at 1. rewrite (direct_length N HL). unfold slepian_direct. rewrite qsum_div. unfold qmean. rewrite HL.
  assert (H := nq_neq N HN). field. split; assumption.
Qed.

Theorem slepian_spec N M : (forall n, length (dpss n) = n) -> 0 < M ->
  exists r, slepian dpss N M = Ok r /\ length r = N.
Proof.
  intros HD HM. unfold slepian. destruct (N <=? M); [exists (slepian_direct dpss N); split; [reflexivity|apply direct_length, HD]|].
  assert (R : exists ref, slepian_default dpss M = Ok ref /\ length ref = M).
  { unfold slepian_default. destruct (M <=? 1000); [exists (slepian_direct dpss M); split; [reflexivity|apply direct_length, HD]|].
    assert (L : length (slepian_direct dpss 1000) = 1000) by apply direct_length, HD.
    destruct (interp_ok M 1000 (slepian_direct dpss 1000)) as (r & Hr); [lia|exact L|].
    exists r. split; [exact Hr|]. exact (proj1 (interp_spec M 1000 _ r Hr L)). }
  destruct R as (ref & -> & L). cbn [bind]. destruct (interp_ok N M ref) as (r & Hr); [lia|exact L|]. exists r. split; [exact Hr|].
  exact (proj1 (interp_spec N M _ r Hr L)).
Qed.

Theorem direct_values N : N <> 0 -> length (dpss N) = N -> qsum (dpss N) <> Q2Qc 0 ->
  forall n u, nth_error (dpss N) n = Some u -> nth_error (slepian_direct dpss N) n = Some (u * (nq N / qsum (dpss N)))%Qc.
Proof.
  intros HN HL HS n u Hu. unfold slepian_direct. rewrite nth_error_map, Hu. simpl. f_equal. unfold qmean. rewrite HL.
  assert (H := nq_neq N HN). field. split; assumption.
Qed.

Theorem slepian_small N M r : slepian dpss N M = Ok r -> N <= M -> 0 < N -> length (dpss N) = N -> qsum (dpss N) <> Q2Qc 0 ->
  length r = N /\ qsum r = nq N /\ forall n u, nth_error (dpss N) n = Some u -> nth_error r n = Some (u * (nq N / qsum (dpss N)))%Qc.
Proof.
  intros H HNM HN HL HS. unfold slepian in H. rewrite (proj2 (Nat.leb_le _ _) HNM) in H. injection H as <-.
  assert (HN0 : N <> 0) by lia. split; [apply direct_length, HL|]. split; [|apply direct_values; assumption].
  pose proof (direct_mean N HN0 HL HS) as HM. unfold qmean at 1 in HM. rewrite (direct_length N HL) in HM.
  rewrite <- (div_mul (nq N) (qsum (slepian_direct dpss N)) (nq_pos N HN0)), HM. ring.
Qed.

Theorem slepian_large N M r : slepian dpss N M = Ok r -> M < N -> (forall n, length (dpss n) = n) -> 0 < M ->
  exists ref, slepian dpss M 1000 = Ok ref /\ length ref = M /\ length r = N /\
  (forall n v, nth_error r n = Some v ->
    (forall k u w, k * N <= n * M < S k * N -> nth_error ref k = Some u -> nth_error ref (S k) = Some w ->
       v = (u + (w - u) * (nq n * nq M / nq N - nq k))%Qc) /\
    (forall u, (M - 1) * N <= n * M -> nth_error ref (M - 1) = Some u -> v = u)) /\
  (forall lo hi, (forall u, In u ref -> lo <= u <= hi)%Qc -> forall v, In v r -> (lo <= v <= hi)%Qc).
Proof.
  intros H HNM HD HM. destruct (slepian_spec M 1000 HD ltac:(lia)) as (ref & E & L). exists ref. split; [exact E|]. split; [exact L|].
  assert (E2 : slepian_default dpss M = Ok ref).
  { unfold slepian in E. unfold slepian_default. destruct (M <=? 1000); [exact E|]. exact E. }
  unfold slepian in H. destruct (Nat.leb_spec N M); [lia|]. rewrite E2 in H. cbn [bind] in H.
  destruct (interp_spec N M ref r H L) as [H1 H2]. split; [exact H1|]. split; [exact H2|]. intros lo hi. apply interp_bounds with (N := N) (M := M); assumption.
Qed.

Theorem slepian_four x y : dpss 3 = [x; y; x] -> x <> y -> (x + y + x)%Qc <> Q2Qc 0 ->
  exists a b c d, slepian dpss 4 3 = Ok [a; b; c; d] /\ a = d /\ b <> c /\ qmean [a; b; c; d] <> Q2Qc 1.
Proof.
  intros E Hxy HS. unfold slepian, slepian_default, slepian_direct. simpl (4 <=? 3). simpl (3 <=? 1000). cbv iota. cbn [bind]. rewrite E.
  unfold qmean. cbn [map length qsum fold_right].
  set (m := ((x + (y + (x + Q2Qc 0))) / nq 3)%Qc).
  assert (N3 : nq 3 <> Q2Qc 0) by (apply nq_neq; lia). assert (N4 : nq 4 <> Q2Qc 0) by (apply nq_neq; lia).
  assert (Hm : m <> Q2Qc 0).
  { intros Hm. apply HS. rewrite <- (div_mul (nq 3) (x + y + x)%Qc (nq_pos 3 ltac:(lia))). replace ((x + y + x) / nq 3)%Qc with m by (unfold m; f_equal; ring).
    rewrite Hm. ring. }
  set (ref := [(x / m)%Qc; (y / m)%Qc; (x / m)%Qc]).
  destruct (interp_ok 4 3 ref) as (r & Hr); [lia|reflexivity|]. rewrite Hr.
  destruct (interp_spec 4 3 ref r Hr eq_refl) as [HL HV].
  destruct r as [|a [|b [|c [|d [|]]]]]; try discriminate. exists a, b, c, d. split; [reflexivity|].
  set (two := (Q2Qc 1 + Q2Qc 1)%Qc). set (three := (two + Q2Qc 1)%Qc).
  assert (T2 : two <> Q2Qc 0) by (intros Z; discriminate Z). assert (T3 : three <> Q2Qc 0) by (intros Z; discriminate Z).
  assert (Ea : a = (x / m)%Qc).
  { rewrite (proj1 (HV 0 a eq_refl) 0 (x / m)%Qc (y / m)%Qc ltac:(lia) eq_refl eq_refl).
    change (nq 0) with (Q2Qc 0). field. split; assumption. }
  assert (Eb : b = (x / m + (y / m - x / m) * (three / (two * two)))%Qc).
  { rewrite (proj1 (HV 1 b eq_refl) 0 (x / m)%Qc (y / m)%Qc ltac:(lia) eq_refl eq_refl).
    f_equal; f_equal; apply Qc_is_canon; reflexivity. }
  assert (Ec : c = (y / m + (x / m - y / m) * (Q2Qc 1 / two))%Qc).
  { rewrite (proj1 (HV 2 c eq_refl) 1 (y / m)%Qc (x / m)%Qc ltac:(lia) eq_refl eq_refl).
    f_equal; f_equal; apply Qc_is_canon; reflexivity. }
  assert (Ed : d = (x / m)%Qc) by (apply (proj2 (HV 3 d eq_refl)); [lia|reflexivity]).
  assert (K3 : nq 3 = three) by (apply Qc_is_canon; reflexivity).
  assert (K4 : nq 4 = (two * two)%Qc) by (apply Qc_is_canon; reflexivity).
  assert (Z : (y - x <> Q2Qc 0)%Qc) by (intros Z; apply Hxy; replace y with (y - x + x)%Qc by ring; rewrite Z; ring).
  split; [congruence|]. split.
  - intros Hbc. apply Z. replace (y - x)%Qc with ((b - c) * m * (two * two))%Qc; [rewrite Hbc; ring|]. rewrite Eb, Ec. unfold three, two. field.
    repeat split; first [exact Hm|discriminate|idtac].
  - intros H1. apply Z. unfold qmean in H1. cbn [qsum fold_right length] in H1.
    replace (y - x)%Qc with ((Q2Qc 1 - (a + (b + (c + (d + Q2Qc 0)))) / nq 4) * m * (two * two * two * two * three))%Qc; [rewrite H1; ring|].
    rewrite Ea, Eb, Ec, Ed, K4. assert (Em : (x + y + x = m * three)%Qc) by (unfold m; rewrite K3; field; exact T3).
    transitivity ((two * two * two * two * three) * m - (two * two * three) * (m * (x / m + (x / m + (y / m - x / m) * (three / (two * two)) + (y / m + (x / m - y / m) * (Q2Qc 1 / two) + x / m)))))%Qc.
    { unfold three, two. field. repeat split; first [exact Hm|discriminate|idtac]. }
    replace ((two * two * two * two * three) * m)%Qc with ((two * two * two * two) * (m * three))%Qc by ring. rewrite <- Em.
    unfold three, two. field. repeat split; first [exact Hm|discriminate|idtac].
Qed.

End S.
