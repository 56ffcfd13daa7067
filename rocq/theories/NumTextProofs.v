(** The texts of numbers of NumTextModel.v are those of SpecNumText.v. *)
From Coq Require Import QArith Qabs Qpower Lqa.
From Verif Require Import Base NumTextModel SpecNumText DateProofs.
Open Scope Z_scope. Local Open Scope list_scope.

(** ** powers of ten *)
Lemma ten_pos k : (0 < tenth k)%Q.
Proof. unfold tenth. apply Qpower_0_lt. reflexivity. Qed.
Lemma ten_plus a b : (tenth (a + b) == tenth a * tenth b)%Q.
Proof. unfold tenth. apply Qpower_plus. discriminate. Qed.
Lemma ten_Z k : 0 <= k -> (tenth k == inject_Z (10 ^ k))%Q.
Proof. intros H. unfold tenth. rewrite Zpower_Qpower by assumption. reflexivity. Qed.
Lemma ten_0 : (tenth 0 == 1)%Q. Proof. reflexivity. Qed.
Lemma ten_ge1 k : 0 <= k -> (1 <= tenth k)%Q.
Proof. intros H. rewrite ten_Z by assumption. change 1%Q with (inject_Z 1). rewrite <- Zle_Qle. pose proof (Z.pow_pos_nonneg 10 k ltac:(lia) H). lia. Qed.
Lemma ten_le a b : a <= b -> (tenth a <= tenth b)%Q.
Proof.
  intros H. replace b with (a + (b - a)) by lia. rewrite ten_plus. pose proof (ten_pos a). pose proof (ten_ge1 (b - a) ltac:(lia)). nra.
Qed.
Lemma ten_lt a b : a < b -> (tenth a < tenth b)%Q.
Proof.
  intros H. apply Qlt_le_trans with (tenth (a + 1)); [|apply ten_le; lia]. rewrite ten_plus. pose proof (ten_pos a). change (tenth 1) with (10 # 1)%Q. lra.
Qed.

(** ** the nearest integer *)
Lemma rhe_near a d j : 0 < d -> Z.abs (rhe a d * d - a) <= Z.abs (j * d - a).
Proof.
  intros Hd. unfold rhe. pose proof (Z.div_mod a d ltac:(lia)) as E. pose proof (Z.mod_pos_bound a d Hd) as B. set (q := a / d) in *. set (r := a mod d) in *.
  assert (H : j * d - a = (j - q) * d - r) by nia.
  assert (C : j - q <= 0 \/ 1 <= j - q) by lia. rewrite H. clear H. set (t := j - q) in *.
  assert (L : r <= Z.abs (t * d - r) \/ d - r <= Z.abs (t * d - r)) by (destruct C; [left|right]; nia).
  assert (L1 : (r <= Z.abs (t * d - r)) \/ (r > Z.abs (t * d - r) /\ d - r <= Z.abs (t * d - r))) by lia.
  cbv zeta. destruct (Z.ltb_spec (2 * r) d).
  - replace (q * d - a) with (- r) by nia. lia.
  - assert (M : d - r <= Z.abs (t * d - r)) by lia. destruct (Z.ltb_spec d (2 * r)); [replace ((q + 1) * d - a) with (d - r) by nia; lia|].
    destruct (Z.even q); [replace (q * d - a) with (- r) by nia; lia|replace ((q + 1) * d - a) with (d - r) by nia; lia].
Qed.
Lemma rhe_tie a d j : 0 < d -> Z.abs (j * d - a) = Z.abs (rhe a d * d - a) -> j = rhe a d \/ (Z.Even (rhe a d) /\ Z.abs (j - rhe a d) = 1).
Proof.
  intros Hd. unfold rhe. pose proof (Z.div_mod a d ltac:(lia)) as E. pose proof (Z.mod_pos_bound a d Hd) as B. set (q := a / d) in *. set (r := a mod d) in *.
  assert (H : j * d - a = (j - q) * d - r) by nia. rewrite H. clear H. set (t := j - q) in *. replace j with (q + t) by (unfold t; lia).
  assert (C : t <= -1 \/ t = 0 \/ t = 1 \/ 2 <= t) by lia.
  cbv zeta. destruct (Z.ltb_spec (2 * r) d).
  - replace (q * d - a) with (- r) by nia. intros G. left. destruct C as [C|[C|[C|C]]]; [nia|lia|subst t; lia|nia].
  - destruct (Z.ltb_spec d (2 * r)).
    + replace ((q + 1) * d - a) with (d - r) by nia. intros G. left. destruct C as [C|[C|[C|C]]]; [nia|rewrite C in G; lia|lia|nia].
    + assert (d = 2 * r) by lia. destruct (Z.even q) eqn:V.
      * replace (q * d - a) with (- r) by nia. intros G. assert (t = 0 \/ t = 1) as [K|K] by (destruct C as [C|[C|[C|C]]]; [nia|lia|lia|nia]); [left; lia|right]. split; [apply Z.even_spec; exact V|lia].
      * replace ((q + 1) * d - a) with (d - r) by nia. intros G. assert (t = 0 \/ t = 1) as [K|K] by (destruct C as [C|[C|[C|C]]]; [nia|lia|lia|nia]); [right|left; lia].
        split; [|lia]. apply Z.even_spec. rewrite Z.add_1_r, Z.even_succ, <- Z.negb_even, V. reflexivity.
Qed.
Lemma rhe_ge a d k : 0 < d -> k * d <= a -> k <= rhe a d.
Proof.
  intros Hd H. assert (k <= a / d) by (apply Z.div_le_lower_bound; nia). unfold rhe. cbv zeta. repeat match goal with |- context [if ?c then _ else _] => destruct c end; lia.
Qed.
Lemma rhe_le a d k : 0 < d -> a < k * d -> rhe a d <= k.
Proof.
  intros Hd H. assert (a / d < k) by (apply Z.div_lt_upper_bound; nia). unfold rhe. cbv zeta. repeat match goal with |- context [if ?c then _ else _] => destruct c end; lia.
Qed.

(** ** the first digit *)
Lemma grow_spec f : forall a d x, 0 < d <= a -> a < d * 10 ^ Z.of_nat f ->
  exists k, 0 <= k /\ grow f a d x = x + k /\ d * 10 ^ k <= a < d * 10 ^ (k + 1).
Proof.
  induction f as [|f IH]; intros a d x H F.
  - change (10 ^ Z.of_nat 0) with 1 in F. lia.
  - cbn [grow]. destruct (Z.leb_spec (10 * d) a).
    + destruct (IH a (10 * d) (x + 1)) as (k & Hk & E & L); [lia|rewrite Nat2Z.inj_succ, Z.pow_succ_r in F by lia; lia|].
      exists (k + 1). rewrite E. rewrite Z.pow_add_r in L by lia. rewrite !Z.pow_add_r by lia. change (10 ^ 1) with 10 in *. set (g := 10 ^ k) in *. nia.
    + exists 0. change (10 ^ 0) with 1. change (10 ^ (0 + 1)) with 10. lia.
Qed.
Lemma shrink_spec f : forall a d x, 0 < a < 10 * d -> d <= a * 10 ^ Z.of_nat f ->
  exists k, 0 <= k /\ shrink f a d x = x - k /\ d <= a * 10 ^ k < 10 * d.
Proof.
  induction f as [|f IH]; intros a d x H F.
  - change (10 ^ Z.of_nat 0) with 1 in F. exists 0. change (10 ^ 0) with 1. cbn [shrink]. lia.
  - cbn [shrink]. destruct (Z.ltb_spec a d).
    + destruct (IH (10 * a) d (x - 1)) as (k & Hk & E & L); [lia|rewrite Nat2Z.inj_succ, Z.pow_succ_r in F by lia; lia|].
      exists (k + 1). rewrite Z.pow_add_r by lia. rewrite E. change (10 ^ 1) with 10. lia.
    + exists 0. change (10 ^ 0) with 1. lia.
Qed.
Lemma pow_fuel a : 0 < a -> a < 10 ^ Z.of_nat (Z.to_nat (Z.log2 a + 1)).
Proof.
  intros H. pose proof (Z.log2_spec a H). pose proof (Z.log2_nonneg a). rewrite Z2Nat.id by lia. apply Z.lt_le_trans with (2 ^ (Z.log2 a + 1)); [unfold Z.succ in *; lia|].
  apply Z.pow_le_mono_l. lia.
Qed.
Lemma Qmake_eq a (d : positive) : (a # d == inject_Z a / inject_Z (Zpos d))%Q.
Proof. rewrite (Qmake_Qdiv a d). reflexivity. Qed.
Lemma inj_pos d : 0 < d -> (0 < inject_Z d)%Q.
Proof. intros H. change 0%Q with (inject_Z 0). rewrite <- Zlt_Qlt. exact H. Qed.
Lemma expo_spec a (d : positive) : 0 < a -> (tenth (expo a (Zpos d)) <= a # d /\ a # d < tenth (expo a (Zpos d) + 1))%Q.
Proof.
  intros Ha. rewrite Qmake_eq. pose proof (inj_pos (Zpos d) eq_refl) as Hd. set (D := inject_Z (Zpos d)) in *.
  unfold expo. destruct (Z.leb_spec (Zpos d) a) as [L|L].
  - destruct (grow_spec (Z.to_nat (Z.log2 a + 1)) a (Zpos d) 0) as (k & Hk & E & B); [lia|pose proof (pow_fuel a Ha); nia|]. rewrite E. cbn [Z.add].
    split.
    + apply Qle_shift_div_l; [exact Hd|]. rewrite ten_Z by lia. unfold D. rewrite <- inject_Z_mult, <- Zle_Qle. lia.
    + apply Qlt_shift_div_r; [exact Hd|]. rewrite ten_Z by lia. unfold D. rewrite <- inject_Z_mult, <- Zlt_Qlt. lia.
  - destruct (shrink_spec (Z.to_nat (Z.log2 (Zpos d) + 1)) a (Zpos d) 0) as (k & Hk & E & B); [lia|pose proof (pow_fuel (Zpos d) eq_refl); nia|]. rewrite E. cbn [Z.sub].
    assert (K : (tenth (- k) * tenth k == 1)%Q) by (rewrite <- ten_plus, Z.add_opp_diag_l; reflexivity).
    pose proof (ten_pos (- k)) as P1. pose proof (ten_pos k) as P2. rewrite (ten_Z k Hk) in K, P2. destruct B as [B1 B2].
    assert (B1' : (D <= inject_Z a * inject_Z (10 ^ k))%Q) by (unfold D; rewrite <- inject_Z_mult, <- Zle_Qle; exact B1).
    assert (B2' : (inject_Z a * inject_Z (10 ^ k) < 10 * D)%Q) by (unfold D; change 10%Q with (inject_Z 10); rewrite <- !inject_Z_mult, <- Zlt_Qlt; exact B2).
    split.
    + apply Qle_shift_div_l; [exact Hd|]. replace (0 - k) with (- k) by lia. setoid_replace (inject_Z a) with (tenth (- k) * (inject_Z a * inject_Z (10 ^ k)))%Q by (rewrite Qmult_assoc, (Qmult_comm (tenth (- k))), <- Qmult_assoc, K; ring).
      apply Qmult_le_l; assumption.
    + apply Qlt_shift_div_r; [exact Hd|]. replace (0 - k) with (- k) by lia. rewrite ten_plus. change (tenth 1) with 10%Q. setoid_replace (inject_Z a) with (tenth (- k) * (inject_Z a * inject_Z (10 ^ k)))%Q by (rewrite Qmult_assoc, (Qmult_comm (tenth (- k))), <- Qmult_assoc, K; ring).
      rewrite <- Qmult_assoc. apply Qmult_lt_l; assumption.
Qed.

(** ** rounding to [p] digits *)
Lemma Qabs_inj j : (Qabs (inject_Z j) == inject_Z (Z.abs j))%Q.
Proof. reflexivity. Qed.
Section Leading.
Context (p a : Z) (d : positive) (Hp : 1 <= p) (Ha : 0 < a).
Let X := expo a (Zpos d).
Let x : Q := a # d.
Let u : Q := tenth (X - (p - 1)).
Definition raw : Z := if X <=? p - 1 then rhe (a * 10 ^ (p - 1 - X)) (Zpos d) else rhe a (Zpos d * 10 ^ (X - (p - 1))).

Lemma raw_scaled : exists A D, 0 < D /\ raw = rhe A D /\ (inject_Z A * u == x * inject_Z D)%Q.
Proof.
  unfold raw. pose proof (inj_pos (Zpos d) eq_refl) as Hd. assert (Ex : (x * inject_Z (Zpos d) == inject_Z a)%Q) by (unfold x; rewrite Qmake_eq; field; lra).
  destruct (Z.leb_spec X (p - 1)) as [L|L].
  - exists (a * 10 ^ (p - 1 - X)), (Zpos d). split; [lia|]. split; [reflexivity|]. rewrite Ex, inject_Z_mult, <- ten_Z by lia. unfold u.
    assert (K : (tenth (p - 1 - X) * tenth (X - (p - 1)) == 1)%Q) by (rewrite <- ten_plus; replace (p - 1 - X + (X - (p - 1))) with 0 by lia; reflexivity).
    rewrite <- Qmult_assoc, K. ring.
  - exists a, (Zpos d * 10 ^ (X - (p - 1))). pose proof (Z.pow_pos_nonneg 10 (X - (p - 1)) ltac:(lia) ltac:(lia)). split; [nia|]. split; [reflexivity|].
    rewrite inject_Z_mult, <- ten_Z by lia. fold u. rewrite <- Ex. ring.
Qed.
Lemma gap A D j : 0 < D -> (inject_Z A * u == x * inject_Z D)%Q ->
  (Qabs (inject_Z j * u - x) == inject_Z (Z.abs (j * D - A)) * (u / inject_Z D))%Q.
Proof.
  intros HD E. pose proof (inj_pos D HD) as HD'. pose proof (ten_pos (X - (p - 1))) as Hu. fold u in Hu.
  assert (G : (inject_Z j * u - x == inject_Z (j * D - A) * (u / inject_Z D))%Q).
  { unfold Z.sub. rewrite inject_Z_plus, inject_Z_opp, inject_Z_mult. setoid_replace x with (inject_Z A * u / inject_Z D)%Q by (rewrite E; field; lra). field. lra. }
  rewrite G, Qabs_Qmult, Qabs_inj. rewrite (Qabs_pos (u / inject_Z D)); [reflexivity|]. apply Qle_shift_div_l; lra.
Qed.
Lemma raw_bounds : 10 ^ (p - 1) <= raw <= 10 ^ p.
Proof.
  destruct raw_scaled as (A & D & HD & -> & E). pose proof (inj_pos D HD) as HD'. pose proof (ten_pos (X - (p - 1))) as Hu. fold u in Hu.
  destruct (expo_spec a d Ha) as [L1 L2]. fold X in L1, L2. fold x in L1, L2.
  assert (T1 : (tenth X == inject_Z (10 ^ (p - 1)) * u)%Q) by (rewrite <- ten_Z by lia; unfold u; rewrite <- ten_plus; replace (p - 1 + (X - (p - 1))) with X by lia; reflexivity).
  assert (T2 : (tenth (X + 1) == inject_Z (10 ^ p) * u)%Q) by (rewrite <- ten_Z by lia; unfold u; rewrite <- ten_plus; replace (p + (X - (p - 1))) with (X + 1) by lia; reflexivity).
  rewrite T1 in L1. rewrite T2 in L2. split.
  - apply rhe_ge; [exact HD|]. rewrite Zle_Qle, inject_Z_mult. apply (Qmult_le_r _ _ u Hu). rewrite E. setoid_replace (inject_Z (10 ^ (p - 1)) * inject_Z D * u)%Q with (inject_Z (10 ^ (p - 1)) * u * inject_Z D)%Q by ring.
    apply Qmult_le_r; assumption.
  - apply rhe_le; [exact HD|]. rewrite Zlt_Qlt, inject_Z_mult. apply (Qmult_lt_r _ _ u Hu). rewrite E. setoid_replace (inject_Z (10 ^ p) * inject_Z D * u)%Q with (inject_Z (10 ^ p) * u * inject_Z D)%Q by ring.
    apply Qmult_lt_r; assumption.
Qed.

(** decimals with [p] digits are multiples of the unit, or smaller than the first power of ten *)
Lemma short_cases y : short p y -> (exists j, (y == inject_Z j * u)%Q) \/ (y < tenth X)%Q.
Proof.
  intros (m & k & Hm & E). destruct (Z_le_gt_dec (X - (p - 1)) k) as [L|L].
  - left. exists (m * 10 ^ (k - (X - (p - 1)))). rewrite E, inject_Z_mult, <- ten_Z, <- Qmult_assoc by lia. unfold u. rewrite <- ten_plus.
    replace (k - (X - (p - 1)) + (X - (p - 1))) with k by lia. reflexivity.
  - right. rewrite E. apply Qlt_le_trans with (tenth p * tenth k)%Q.
    + apply Qmult_lt_r; [apply ten_pos|]. rewrite ten_Z, <- Zlt_Qlt by lia. lia.
    + rewrite <- ten_plus. apply ten_le. lia.
Qed.
Lemma raw_rounded : forall v, short p v -> (v == inject_Z raw * u)%Q -> rounded p x v.
Proof.
  intros v Sv Ev. destruct raw_scaled as (A & D & HD & R & E). pose proof (inj_pos D HD) as HD'. pose proof (ten_pos (X - (p - 1))) as Hu. fold u in Hu.
  assert (Hr : (0 < u / inject_Z D)%Q) by (apply Qlt_shift_div_l; lra).
  destruct (expo_spec a d Ha) as [L1 L2]. fold X in L1, L2. fold x in L1, L2.
  assert (T1 : (tenth X == inject_Z (10 ^ (p - 1)) * u)%Q) by (rewrite <- ten_Z by lia; unfold u; rewrite <- ten_plus; replace (p - 1 + (X - (p - 1))) with X by lia; reflexivity).
  assert (Near : forall j, (Qabs (v - x) <= Qabs (inject_Z j * u - x))%Q).
  { intros j. rewrite Ev. rewrite !(gap A D) by assumption. rewrite R. apply Qmult_le_r; [exact Hr|]. rewrite <- Zle_Qle. apply rhe_near. exact HD. }
  assert (Small : forall y, (y < tenth X)%Q -> (Qabs (v - x) < Qabs (y - x))%Q).
  { intros y Hy. eapply Qle_lt_trans; [apply (Near (10 ^ (p - 1)))|]. rewrite <- T1. rewrite (Qabs_neg (tenth X - x)), (Qabs_neg (y - x)) by lra. lra. }
  split; [exact Sv|]. split.
  - intros y Sy. destruct (short_cases y Sy) as [[j Ej]|Hy]; [rewrite Ej; apply Near|apply Qlt_le_weak, Small, Hy].
  - intros y Sy T. destruct (short_cases y Sy) as [[j Ej]|Hy]; [|pose proof (Small y Hy); lra].
    rewrite Ej, Ev in T. rewrite !(gap A D) in T by assumption. apply Qmult_inj_r in T; [|lra]. rewrite inject_Z_injective in T. rewrite R in T.
    apply rhe_tie in T; [|exact HD]. rewrite <- R in T. destruct T as [T|[[h Hh] T]]; [left; rewrite Ej, Ev, T; reflexivity|right].
    exists h, (X - (p - 1)). rewrite <- Hh. pose proof raw_bounds. pose proof (Z.pow_pos_nonneg 10 (p - 1) ltac:(lia) ltac:(lia)). split; [lia|]. split; [exact Ev|]. fold u.
    setoid_replace (y - v)%Q with (inject_Z (j - raw) * u)%Q by (rewrite Ej, Ev; unfold Z.sub; rewrite inject_Z_plus, inject_Z_opp; ring).
    rewrite Qabs_Qmult, Qabs_inj, T, (Qabs_pos u) by lra. change (inject_Z 1) with 1%Q. ring.
Qed.

Lemma leading_spec m e : leading p a (Zpos d) = (m, e) ->
  10 ^ (p - 1) <= m < 10 ^ p /\ rounded p x (inject_Z m * tenth (e - (p - 1))).
Proof.
  unfold leading. fold X. fold raw. cbv zeta. pose proof raw_bounds as B. pose proof (Z.pow_pos_nonneg 10 (p - 1) ltac:(lia) ltac:(lia)) as P.
  assert (Ep : 10 ^ p = 10 * 10 ^ (p - 1)) by (replace p with (1 + (p - 1)) at 1 by lia; rewrite Z.pow_add_r by lia; reflexivity).
  destruct (Z.eqb_spec raw (10 ^ p)) as [Q|Q]; intros E; injection E as <- <-.
  - split; [lia|]. apply raw_rounded.
    + exists (10 ^ (p - 1)), (X + 1 - (p - 1)). split; [lia|reflexivity].
    + rewrite Q, Ep, inject_Z_mult. unfold u. replace (X + 1 - (p - 1)) with (1 + (X - (p - 1))) by lia. rewrite ten_plus. change (tenth 1) with (inject_Z 10). ring.
  - split; [lia|]. apply raw_rounded; [|reflexivity]. exists raw, (X - (p - 1)). split; [lia|reflexivity].
Qed.
End Leading.

Lemma short_opp p y : short p y -> short p (- y).
Proof. intros (m & k & H & E). exists (- m), k. split; [lia|]. rewrite E, inject_Z_opp. ring. Qed.
Lemma opp_gap y x : (Qabs (- y - x) == Qabs (y - - x))%Q.
Proof. rewrite <- Qabs_opp. apply Qabs_wd. ring. Qed.
Lemma rounded_opp p x v : rounded p (- x) v -> rounded p x (- v).
Proof.
  intros (S & N & T). split; [apply short_opp; exact S|]. split.
  - intros y Hy. rewrite opp_gap. eapply Qle_trans; [apply (N (- y)%Q (short_opp _ _ Hy))|]. rewrite <- Qabs_opp. apply Qle_lteq. right. apply Qabs_wd. ring.
  - intros y Hy E. destruct (T (- y)%Q (short_opp _ _ Hy)) as [G|(m & k & B & G1 & G2)].
    + rewrite opp_gap in E. rewrite <- E. rewrite <- Qabs_opp. apply Qabs_wd. ring.
    + left. rewrite <- G. ring.
    + right. exists (- m), k. split; [lia|]. split; [rewrite G1, Z.mul_opp_r, inject_Z_opp; ring|]. rewrite <- G2. rewrite <- Qabs_opp. apply Qabs_wd. ring.
Qed.
Lemma rounded_wd p x x' v v' : (x == x')%Q -> (v == v')%Q -> rounded p x v -> rounded p x' v'.
Proof.
  intros Ex Ev ((m & k & B & E) & N & T). split; [exists m, k; split; [exact B|rewrite <- Ev; exact E]|]. split.
  - intros y Hy. rewrite <- Ex, <- Ev. apply N. exact Hy.
  - intros y Hy. rewrite <- Ex, <- Ev. intros G. destruct (T y Hy G) as [G'|(m' & k' & B' & G1 & G2)]; [left; exact G'|right]. exists m', k'. rewrite <- Ev. auto.
Qed.

(** ** digits *)
Lemma number_snoc l d : number (l ++ [d]) = 10 * number l + d.
Proof. unfold number. rewrite fold_left_app. reflexivity. Qed.
Lemma number_app l r : number (l ++ r) = number l * 10 ^ Z.of_nat (length r) + number r.
Proof.
  induction r as [|d r IH] using rev_ind; [rewrite app_nil_r; cbn; lia|]. rewrite app_assoc, !number_snoc, IH, app_length, Nat2Z.inj_add. cbn [length].
  rewrite Z.pow_add_r by lia. change (10 ^ Z.of_nat 1) with 10. lia.
Qed.
Lemma number_zeros n : number (repeat 0 n) = 0.
Proof. induction n as [|n IH]; [reflexivity|]. change (repeat 0 (S n)) with ([0] ++ repeat 0 n). rewrite number_app, IH. cbn. lia. Qed.
Lemma dig_length k : forall m, length (dig k m) = k.
Proof. induction k as [|k IH]; intros m; [reflexivity|]. cbn [dig]. rewrite app_length, IH. cbn. lia. Qed.
Lemma dig_digits k : forall m, are_digits (dig k m).
Proof.
  induction k as [|k IH]; intros m e H; [destruct H|]. cbn [dig] in H. apply in_app_iff in H as [H|[<-|[]]]; [apply (IH _ _ H)|]. pose proof (Z.mod_pos_bound m 10 ltac:(lia)). lia.
Qed.
Lemma dig_number k : forall m, number (dig k m) = m mod 10 ^ Z.of_nat k.
Proof.
  induction k as [|k IH]; intros m; [cbn; rewrite Z.mod_1_r; reflexivity|]. cbn [dig]. rewrite number_snoc, IH. rewrite Nat2Z.inj_succ, Z.pow_succ_r by lia.
  pose proof (Z.pow_pos_nonneg 10 (Z.of_nat k) ltac:(lia) ltac:(lia)). rewrite Z.rem_mul_r by lia. lia.
Qed.
Lemma dig_head k : forall m, 10 ^ Z.of_nat k <= m < 10 ^ Z.of_nat (S k) -> exists d l, dig (S k) m = d :: l /\ d <> 0.
Proof.
  induction k as [|k IH]; intros m H.
  - cbn in H. exists (m mod 10), []. split; [reflexivity|]. rewrite Z.mod_small by lia. lia.
  - rewrite (Nat2Z.inj_succ (S k)), Z.pow_succ_r in H by lia. pose proof H as H'. rewrite Nat2Z.inj_succ, Z.pow_succ_r in H' by lia.
    destruct (IH (m / 10)) as (d & l & E & N); [split; [apply Z.div_le_lower_bound; lia|apply Z.div_lt_upper_bound; rewrite ?Nat2Z.inj_succ, ?Z.pow_succ_r in * by lia; lia]|].
    exists d, (l ++ [m mod 10]). split; [|exact N]. change (dig (S (S k)) m) with (dig (S k) (m / 10) ++ [m mod 10]). rewrite E. reflexivity.
Qed.
Lemma dtext_digits l : are_digits l -> dtext l = digits_text l.
Proof.
  induction l as [|e l IH]; intros H; [reflexivity|]. cbn [dtext]. unfold digits_text. cbn [map string_of_list_ascii]. fold (digits_text l). rewrite IH by (intros x Hx; apply H; right; exact Hx). f_equal.
  assert (0 <= e <= 9) as B by (apply H; left; reflexivity).
  assert (C : e = 0 \/ e = 1 \/ e = 2 \/ e = 3 \/ e = 4 \/ e = 5 \/ e = 6 \/ e = 7 \/ e = 8 \/ e = 9) by lia. repeat (destruct C as [->|C]; [reflexivity|]). subst e. reflexivity.
Qed.
Lemma strip_split l : (exists n, l = strip l ++ repeat 0 n) /\ last (strip l) 1 <> 0.
Proof.
  induction l as [|e l [[n E] L]]; [split; [exists O; reflexivity|discriminate]|]. cbn [strip]. destruct (strip l) as [|c r] eqn:Es.
  - destruct (Z.eqb_spec e 0) as [->|N]; [split; [exists (S n); rewrite E; reflexivity|discriminate]|]. split; [exists n; rewrite E; reflexivity|cbn; exact N].
  - split; [exists n; rewrite E at 1; reflexivity|]. exact L.
Qed.
Lemma strip_digits l : are_digits l -> are_digits (strip l).
Proof. intros H e He. apply H. destruct (strip_split l) as [[n ->] _]. apply in_app_iff. left. exact He. Qed.
Lemma frac_text l : are_digits l -> frac l = match strip l with [] => EmptyString | _ => ("." ++ digits_text (strip l))%string end.
Proof. intros H. unfold frac. pose proof (strip_digits l H) as S. destruct (strip l); [reflexivity|]. rewrite dtext_digits by exact S. reflexivity. Qed.
(** the zeros at the end do not count *)
Lemma strip_value w l e : (inject_Z (number (w ++ strip l)) * tenth (e - Z.of_nat (length (strip l))) == inject_Z (number (w ++ l)) * tenth (e - Z.of_nat (length l)))%Q.
Proof.
  destruct (strip_split l) as [[n E] _]. set (s := strip l) in *. rewrite E. rewrite app_assoc, (number_app (w ++ s)), number_zeros, Z.add_0_r, repeat_length, app_length, repeat_length, inject_Z_mult.
  rewrite <- ten_Z, <- Qmult_assoc, <- ten_plus by lia. replace (Z.of_nat n + (e - Z.of_nat (length s + n))) with (e - Z.of_nat (length s)) by lia. reflexivity.
Qed.

(** ** the text of a number *)
Lemma text_end s : (s ++ "")%string = s.
Proof. induction s as [|c s IH]; [reflexivity|]. cbn. rewrite IH. reflexivity. Qed.
Section Body.
Context (p m e : Z) (Hp : 1 <= p) (Hm : 10 ^ (p - 1) <= m < 10 ^ p).
Let w : Q := inject_Z m * tenth (e - (p - 1)).
Let ds : list Z := dig (Z.to_nat p) m.

Lemma w_bounds : (tenth e <= w /\ w < tenth (e + 1))%Q.
Proof.
  unfold w. pose proof (ten_pos (e - (p - 1))) as P. split.
  - replace e with (p - 1 + (e - (p - 1))) at 1 by lia. rewrite ten_plus. apply Qmult_le_r; [exact P|]. rewrite ten_Z, <- Zle_Qle by lia. lia.
  - replace (e + 1) with (p + (e - (p - 1))) by lia. rewrite ten_plus. apply Qmult_lt_r; [exact P|]. rewrite ten_Z, <- Zlt_Qlt by lia. lia.
Qed.
Lemma w_pos : (0 < w)%Q. Proof. pose proof w_bounds. pose proof (ten_pos e). lra. Qed.
Lemma w_usual v : (Qabs v == w)%Q -> (usual p v <-> -4 <= e < p).
Proof.
  intros E. destruct w_bounds as [L1 L2]. unfold usual. rewrite E. split.
  - intros [Z|[A B]]; [exfalso; rewrite Z in E; pose proof w_pos; change (Qabs 0) with 0%Q in E; lra|]. split.
    + destruct (Z_le_gt_dec (-4) e); [assumption|exfalso]. pose proof (ten_le (e + 1) (-4) ltac:(lia)). lra.
    + destruct (Z_lt_ge_dec e p); [assumption|exfalso]. pose proof (ten_le p e ltac:(lia)). lra.
  - intros [A B]. right. split; [pose proof (ten_le (-4) e A); lra|pose proof (ten_le (e + 1) p ltac:(lia)); lra].
Qed.
Lemma ds_length : length ds = Z.to_nat p. Proof. apply dig_length. Qed.
Lemma ds_number : number ds = m.
Proof. unfold ds. rewrite dig_number, Z2Nat.id by lia. apply Z.mod_small. pose proof (Z.pow_pos_nonneg 10 (p - 1) ltac:(lia) ltac:(lia)). lia. Qed.
Lemma ds_head : exists d l, ds = d :: l /\ d <> 0.
Proof. unfold ds. replace (Z.to_nat p) with (S (Z.to_nat (p - 1))) by lia. apply dig_head. rewrite Nat2Z.inj_succ, Z2Nat.id by lia. replace (Z.succ (p - 1)) with p by lia. exact Hm. Qed.
Lemma ds_digits : are_digits ds. Proof. apply dig_digits. Qed.
Lemma firstn_digits n l : are_digits l -> are_digits (firstn n l).
Proof. intros H x Hx. apply H. rewrite <- (firstn_skipn n l). apply in_app_iff. left. exact Hx. Qed.
Lemma skipn_digits n l : are_digits l -> are_digits (skipn n l).
Proof. intros H x Hx. apply H. rewrite <- (firstn_skipn n l). apply in_app_iff. right. exact Hx. Qed.

Lemma two_spec n : 1 <= n -> exists l, two n = digits_text l /\ are_digits l /\ number l = n /\ (2 <= length l)%nat /\ ((3 <= length l)%nat -> hd 0 l <> 0).
Proof.
  intros Hn. unfold two. pose proof (expo_spec n 1 ltac:(lia)) as [L1 L2]. set (x := expo n 1) in *. change (n # 1)%Q with (inject_Z n) in *.
  assert (0 <= x). { destruct (Z_le_gt_dec 0 x); [assumption|exfalso]. pose proof (ten_le (x + 1) 0 ltac:(lia)). rewrite ten_0 in *. assert (inject_Z 1 <= inject_Z n)%Q by (rewrite <- Zle_Qle; lia). change (inject_Z 1) with 1%Q in *. lra. }
  rewrite ten_Z in L1, L2 by lia. rewrite <- Zle_Qle in L1. rewrite <- Zlt_Qlt in L2.
  set (k := Nat.max 2 (Z.to_nat x + 1)). exists (dig k n). split; [apply dtext_digits, dig_digits|]. split; [apply dig_digits|]. rewrite dig_number, dig_length.
  split; [|split; [unfold k; lia|]].
  - apply Z.mod_small. split; [lia|]. apply Z.lt_le_trans with (1 := L2). apply Z.pow_le_mono_r; [lia|unfold k; lia].
  - intros K. replace k with (S (Z.to_nat x)) by (unfold k in *; lia). destruct (dig_head (Z.to_nat x) n) as (d & l & -> & N); [|exact N].
    rewrite Nat2Z.inj_succ, Z2Nat.id by lia. unfold Z.succ. lia.
Qed.

Lemma body_written (neg : bool) : written p ((if neg then -1 # 1 else 1 # 1) * w)
  ((if neg then "-" else "")%string ++ (if ((-4 <=? e) && (e <? p))%Z then fixed e ds else sci e ds))%string.
Proof.
  pose proof w_pos as W. set (v := ((if neg then -1 # 1 else 1 # 1) * w)%Q).
  assert (Av : (Qabs v == w)%Q) by (unfold v; rewrite Qabs_Qmult, (Qabs_pos w) by lra; destruct neg; apply Qmult_1_l).
  assert (Nv : neg = true <-> (v < 0)%Q) by (unfold v; destruct neg; split; intros; try discriminate; try reflexivity; lra).
  pose proof (w_usual v Av) as U. pose proof ds_number as Dn. pose proof ds_length as Dl. pose proof ds_digits as Dd. destruct ds_head as (d0 & l0 & Dh & Nh).
  assert (Split : forall n, number (firstn n ds ++ skipn n ds) = m) by (intros n; rewrite firstn_skipn; exact Dn).
  destruct ((-4 <=? e) && (e <? p))%Z eqn:R.
  - apply andb_true_iff in R as [R1 R2]. apply Z.leb_le in R1. apply Z.ltb_lt in R2. unfold fixed. destruct (Z.leb_spec 0 e) as [P|P].
    + set (n := (Z.to_nat e + 1)%nat). exists neg, (firstn n ds), (strip (skipn n ds)), None.
      split; [apply firstn_digits, Dd|]. split; [apply strip_digits, skipn_digits, Dd|]. split; [|split; [|split; [exact Nv|split; [|split; [apply strip_split|apply U; lia]]]]].
      * rewrite frac_text by (apply skipn_digits, Dd). rewrite dtext_digits by (apply firstn_digits, Dd). rewrite text_end. reflexivity.
      * rewrite <- Qmult_assoc, strip_value, Split. unfold v, w. rewrite skipn_length, Dl. replace (0 - Z.of_nat (Z.to_nat p - n)) with (e - (p - 1)) by (unfold n; lia). reflexivity.
      * right. unfold n. rewrite Dh, Nat.add_comm. cbn [firstn plus]. eauto.
    + set (z := repeat 0 (Z.to_nat (- e) - 1)). assert (Zd : are_digits (z ++ ds)) by (intros x Hx; apply in_app_iff in Hx as [Hx|Hx]; [apply repeat_spec in Hx; lia|apply Dd; exact Hx]).
      exists neg, [0], (strip (z ++ ds)), None.
      split; [intros x [<-|[]]; lia|]. split; [apply strip_digits, Zd|]. split; [|split; [|split; [exact Nv|split; [left; reflexivity|split; [apply strip_split|apply U; lia]]]]].
      * rewrite frac_text by exact Zd. rewrite text_end. reflexivity.
      * rewrite <- Qmult_assoc, strip_value. rewrite app_assoc, number_app. change ([0] ++ z) with (repeat 0 (S (Z.to_nat (- e) - 1))). rewrite number_zeros, Dn, Z.mul_0_l, Z.add_0_l.
        unfold v, w. rewrite app_length, Dl. unfold z. rewrite repeat_length. replace (0 - Z.of_nat (Z.to_nat (- e) - 1 + Z.to_nat p)) with (e - (p - 1)) by lia. reflexivity.
  - assert (R' : ~ (-4 <= e < p)) by (intros [A B]; apply Z.leb_le in A; apply Z.ltb_lt in B; rewrite A, B in R; discriminate).
    assert (e <> 0) by lia. destruct (two_spec (Z.abs e) ltac:(lia)) as (l & Tl & Ld & Ln & L2 & L3). unfold sci. exists neg, (firstn 1 ds), (strip (skipn 1 ds)), (Some (e <? 0, l)).
    split; [apply firstn_digits, Dd|]. split; [apply strip_digits, skipn_digits, Dd|]. split; [|split; [|split; [exact Nv|split; [|split; [apply strip_split|]]]]].
    + rewrite frac_text by (apply skipn_digits, Dd). rewrite dtext_digits by (apply firstn_digits, Dd). rewrite Tl. reflexivity.
    + assert (Ee : match (if e <? 0 then true else false) with true => - number l | false => number l end = e) by (destruct (Z.ltb_spec e 0); lia).
      replace (if e <? 0 then true else false) with (e <? 0) in Ee by (destruct (e <? 0); reflexivity). rewrite Ee.
      rewrite <- Qmult_assoc, strip_value, Split. unfold v, w. rewrite skipn_length, Dl. replace (e - Z.of_nat (Z.to_nat p - 1)) with (e - (p - 1)) by lia. reflexivity.
    + right. rewrite Dh. cbn [firstn]. eauto.
    + split; [rewrite U; exact R'|]. split; [exists d0; rewrite Dh; split; [reflexivity|exact Nh]|]. auto.
Qed.
End Body.

Lemma written_wd p v v' t : (v == v')%Q -> written p v t -> written p v' t.
Proof.
  intros E (neg & wh & pa & ex & A & B & C & D & F & G & H & I). exists neg, wh, pa, ex.
  assert (U : usual p v <-> usual p v') by (unfold usual; rewrite E; reflexivity).
  split; [exact A|]. split; [exact B|]. split; [exact C|]. split; [rewrite <- E; exact D|]. split; [rewrite <- E; exact F|]. split; [exact G|]. split; [exact H|].
  destruct ex as [[lo l]|]; [rewrite <- U; exact I|apply U; exact I].
Qed.

Lemma gtext_spec p x : 1 <= p -> exists v, rounded p x v /\ written p v (gtext p x).
Proof.
  intros Hp. unfold gtext. cbv zeta. destruct (Z.eqb_spec p 0); [lia|]. destruct (Z.eqb_spec (Qnum x) 0) as [E|N].
  - assert (Ex : (x == 0)%Q) by (unfold Qeq; rewrite E; reflexivity).
    assert (S0 : short p 0) by (exists 0, 0; split; [cbn; apply Z.pow_pos_nonneg; lia|reflexivity]).
    exists 0%Q. split.
    + assert (Z0 : (Qabs (0 - x) == 0)%Q) by (rewrite Ex; reflexivity).
      split; [exact S0|]. split.
      * intros y _. rewrite Z0. apply Qabs_nonneg.
      * intros y _ G. left. rewrite Z0, Ex in G. pose proof (Qle_Qabs (y - 0)). pose proof (Qle_Qabs (- (y - 0))) as Q2. rewrite Qabs_opp in Q2. lra.
    + exists false, [0], [], None. split; [intros d [<-|[]]; lia|]. split; [intros d []|]. split; [reflexivity|]. split; [reflexivity|]. split; [split; [discriminate|intros H; discriminate H]|].
      split; [left; reflexivity|]. split; [discriminate|]. left. reflexivity.
  - destruct (leading p (Z.abs (Qnum x)) (Zpos (Qden x))) as [m e] eqn:L. apply leading_spec in L as [B R]; [|exact Hp|lia].
    set (neg := Qnum x <? 0). exists ((if neg then -1 # 1 else 1 # 1) * (inject_Z m * tenth (e - (p - 1))))%Q. split.
    + unfold neg. destruct (Z.ltb_spec (Qnum x) 0) as [H|H].
      * eapply rounded_wd; [reflexivity| |apply rounded_opp; eapply rounded_wd; [|reflexivity|exact R]]; [ring|]. unfold Qeq, Qopp. cbn. lia.
      * eapply rounded_wd; [|  |exact R]; [|ring]. unfold Qeq. cbn. lia.
    + replace (if Qnum x <? 0 then "-"%string else ""%string) with (if neg then "-"%string else ""%string) by reflexivity. apply body_written; assumption.
Qed.
