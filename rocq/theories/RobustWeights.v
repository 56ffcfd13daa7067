(** Lemmas about the Huber, Thomson and bounded-influence formulas. *)
From Coq Require Import Reals Lra.
From Coquelicot Require Import Complex.
From Verif Require Import Base BaseLemmas RobustModel SpecRobust RobustProofs.
Open Scope R_scope.

Lemma huber_length alpha r : length (huber alpha r) = length r.
Proof. unfold huber, vnorm. rewrite !map_length. reflexivity. Qed.
Lemma thomson_length xi s r : length (thomson xi s r) = length r.
Proof. unfold thomson, vnorm. rewrite !map_length. reflexivity. Qed.

Lemma huber_nth alpha r i x : nth_error r i = Some x ->
  nth_error (huber alpha r) i = Some (xmin1 (xdiv (xmul (Fin alpha) (of_opt (mad_scale (vnorm r)))) (of_opt (option_map Cmod x)))).
Proof. intros H. unfold huber. cbv zeta. rewrite nth_error_map. unfold vnorm at 2. rewrite nth_error_map, H. reflexivity. Qed.

Lemma huber_value alpha r s i z : scale_of r s -> nth_error r i = Some (Some z) ->
  nth_error (huber alpha r) i = Some (xmin1 (xdiv (Fin (alpha * s)) (Fin (Cmod z)))).
Proof. intros H E. rewrite (huber_nth _ _ _ _ E), (scale_spec r s H). reflexivity. Qed.

Lemma huber_nan alpha r i : nth_error r i = Some None -> nth_error (huber alpha r) i = Some NaN.
Proof. intros E. rewrite (huber_nth _ _ _ _ E). simpl. destruct (of_opt (mad_scale (vnorm r))); simpl; try reflexivity; unfold infinite; destruct (Rlt_dec _ _); try reflexivity; destruct (Rlt_dec _ _); reflexivity. Qed.

(** the Huber weight of a residual of modulus [x], scale [s] *)
Lemma huber_pos alpha s x : 0 < alpha -> 0 < s -> 0 <= x ->
  exists v, xmin1 (xdiv (Fin (alpha * s)) (Fin x)) = Fin v /\ 0 < v <= 1 /\ (x <= alpha * s -> v = 1) /\ (alpha * s < x -> v * x = alpha * s /\ v < 1).
Proof.
  intros Ha Hs Hx. assert (Hp : 0 < alpha * s) by nra. simpl. destruct (Req_EM_T x 0) as [->|N].
  - unfold infinite. destruct (Rlt_dec 0 (alpha * s)); [|lra]. exists 1. split; [reflexivity|]. repeat split; lra.
  - assert (P : 0 < x) by lra. exists (Rmin 1 (alpha * s / x)). split; [reflexivity|].
    assert (Q : alpha * s / x * x = alpha * s) by (field; lra).
    assert (Q0 : 0 < alpha * s / x) by (apply Rdiv_lt_0_compat; assumption).
    unfold Rmin. destruct (Rle_dec 1 (alpha * s / x)); repeat split; try lra; nra.
Qed.
Lemma huber_zero alpha x : 0 <= x -> xmin1 (xdiv (Fin (alpha * 0)) (Fin x)) = if Req_EM_T x 0 then NaN else Fin 0.
Proof.
  intros Hx. simpl. destruct (Req_EM_T x 0) as [E|N].
  - unfold infinite. destruct (Rlt_dec 0 (alpha * 0)); [lra|]. destruct (Rlt_dec (alpha * 0) 0); [lra|reflexivity].
  - simpl. f_equal. unfold Rdiv. rewrite Rmult_0_r, Rmult_0_l. apply Rmin_right. lra.
Qed.

(** ** Thomson *)
Lemma expexp_fin x a : expexp (Fin x) (Fin a) = Fin (exp (exp (- (a * a)) - exp (a * (x - a)))).
Proof. reflexivity. Qed.

Lemma thomson_nth xi s r i x : nth_error r i = Some x ->
  nth_error (thomson xi s r) i = Some (expexp (xdiv (of_opt (option_map Cmod x)) (of_opt s)) (Fin (thomson_xi xi (length r)))).
Proof. intros H. unfold thomson, vnorm. rewrite !nth_error_map, H. reflexivity. Qed.

Lemma thomson_xi_pos xi n : (0 < n)%nat -> match xi with Some x => 0 < x | None => True end -> 0 < thomson_xi xi n.
Proof.
  intros Hn. destruct xi as [x|]; simpl; [auto|]. intros _. apply sqrt_lt_R0.
  assert (1 <= INR n) by (apply (le_INR 1); lia). assert (0 < ln (2 * INR n)) by (rewrite <- ln_1; apply ln_increasing; lra). lra.
Qed.

(** the weight of a normalised residual [t] *)
Definition tw (xi t : R) : R := exp (exp (- (xi * xi)) - exp (xi * (t - xi))).
Lemma tw_0 xi : tw xi 0 = 1.
Proof. unfold tw. replace (xi * (0 - xi)) with (- (xi * xi)) by ring. rewrite Rminus_diag_eq by reflexivity. apply exp_0. Qed.
Lemma tw_decr xi t t' : 0 < xi -> t < t' -> tw xi t' < tw xi t.
Proof.
  intros Hxi Ht. unfold tw. apply exp_increasing.
  assert (exp (xi * (t - xi)) < exp (xi * (t' - xi))) by (apply exp_increasing; nra). lra.
Qed.
Lemma tw_pos xi t : 0 < tw xi t. Proof. apply exp_pos. Qed.
Lemma tw_le1 xi t : 0 < xi -> 0 <= t -> tw xi t <= 1.
Proof. intros Hxi [Ht|<-]; [|rewrite tw_0; lra]. rewrite <- (tw_0 xi). apply Rlt_le, tw_decr; assumption. Qed.

Lemma thomson_pos xi s x : 0 < s -> expexp (xdiv (Fin x) (Fin s)) (Fin xi) = Fin (tw xi (x / s)).
Proof. intros H. simpl. destruct (Req_EM_T s 0); [lra|]. reflexivity. Qed.
Lemma thomson_zero xi x : 0 < xi -> 0 <= x -> expexp (xdiv (Fin x) (Fin 0)) (Fin xi) = if Req_EM_T x 0 then NaN else Fin 0.
Proof.
  intros Hxi Hx. simpl. destruct (Req_EM_T 0 0) as [_|N]; [|congruence]. unfold infinite.
  destruct (Req_EM_T x 0) as [->|N].
  - destruct (Rlt_dec 0 0); [lra|]. reflexivity.
  - destruct (Rlt_dec 0 x); [|lra]. unfold expexp. cbn. unfold infinite. destruct (Rlt_dec 0 xi); [|lra]. reflexivity.
Qed.

(** ** bounded influence *)
Lemma hat_pos lower khi y : 0 < lower -> 0 < y ->
  hat_factor lower khi y = Fin (tw khi y * tw (ln lower) (ln y)).
Proof.
  intros Hl Hy. unfold hat_factor. simpl xlog. destruct (Rlt_dec 0 y); [|lra]. destruct (Rlt_dec 0 lower); [|lra]. reflexivity.
Qed.
Lemma tw_bound a t : tw a t < exp (exp (- (a * a))).
Proof. unfold tw. apply exp_increasing. pose proof (exp_pos (a * (t - a))). lra. Qed.

Lemma hat_bound lower khi y : 0 < lower -> 0 < khi -> 0 < y ->
  exists v, hat_factor lower khi y = Fin v /\ 0 < v < exp (exp (- (ln lower * ln lower))).
Proof.
  intros Hl Hk Hy. rewrite hat_pos by assumption. eexists. split; [reflexivity|].
  pose proof (tw_pos khi y). pose proof (tw_pos (ln lower) (ln y)). pose proof (tw_le1 khi y Hk (Rlt_le _ _ Hy)).
  pose proof (tw_bound (ln lower) (ln y)). split; [nra|]. nra.
Qed.

Lemma hat_zero lower khi : 0 < lower < 1 -> hat_factor lower khi 0 = Fin 0.
Proof.
  intros [H0 H1]. unfold hat_factor. simpl xlog. destruct (Rlt_dec 0 0); [lra|]. destruct (Req_EM_T 0 0); [|congruence].
  destruct (Rlt_dec 0 lower); [|lra]. rewrite expexp_fin.
  assert (L : ln lower < 0) by (rewrite <- ln_1; apply ln_increasing; lra).
  unfold expexp. cbn. unfold infinite. destruct (Rlt_dec 0 (- ln lower)); [|lra]. cbn. f_equal. ring.
Qed.
Lemma hat_zero_one khi : hat_factor 1 khi 0 = NaN.
Proof.
  unfold hat_factor. simpl xlog. destruct (Rlt_dec 0 0); [lra|]. destruct (Req_EM_T 0 0); [|congruence].
  destruct (Rlt_dec 0 1); [|lra]. rewrite expexp_fin. rewrite ln_1.
  unfold expexp. cbn. unfold infinite. rewrite Ropp_0. destruct (Rlt_dec 0 0); [lra|]. destruct (Rlt_dec 0 0); [lra|]. reflexivity.
Qed.

(** when the factor of a row exceeds one *)
Lemma hat_exceeds lower khi y : 0 < lower -> 0 < y ->
  let a := ln lower in
  exists v, hat_factor lower khi y = Fin v /\
  (1 < v <-> exp (- (khi * khi)) * (exp (khi * y) - 1) < exp (- (a * a)) * (1 - exp (a * ln y))).
Proof.
  intros Hl Hy a. rewrite hat_pos by assumption. eexists. split; [reflexivity|]. unfold tw. fold a.
  replace (khi * (y - khi)) with (- (khi * khi) + khi * y) by ring.
  replace (a * (ln y - a)) with (- (a * a) + a * ln y) by ring. rewrite (exp_plus (- (khi * khi))), (exp_plus (- (a * a))).
  set (e1 := exp (- (khi * khi))). set (e2 := exp (- (a * a))). rewrite <- (exp_plus (e1 - _)). rewrite <- exp_0 at 1. split; intros H.
  - apply exp_lt_inv in H. lra.
  - apply exp_increasing. lra.
Qed.

Lemma exp_ge1 x : 0 <= x -> 1 + x <= exp x.
Proof. intros [H|<-]; [left; apply exp_ineq1; lra|rewrite exp_0; lra]. Qed.

Lemma hat_exceeds_ex lower : 0 < lower < 1 -> exists khi0, 0 < khi0 /\ forall khi, khi0 <= khi ->
  exists v, hat_factor lower khi 2 = Fin v /\ 1 < v.
Proof.
  intros [Hl H1]. set (a := ln lower).
  assert (L : a < 0) by (unfold a; rewrite <- ln_1; apply ln_increasing; lra).
  assert (L2 : 0 < ln 2) by (rewrite <- ln_1; apply ln_increasing; lra).
  set (q := exp (- (a * a)) * (1 - exp (a * ln 2))).
  assert (Q : 0 < q).
  { apply Rmult_lt_0_compat; [apply exp_pos|]. assert (exp (a * ln 2) < 1) by (rewrite <- exp_0; apply exp_increasing; nra). lra. }
  exists (3 + / q). assert (Iq : 0 < / q) by (apply Rinv_0_lt_compat; exact Q). split; [lra|]. intros khi Hk.
  destruct (hat_exceeds lower khi 2 Hl ltac:(lra)) as (v & E & V). exists v. split; [exact E|]. apply V. fold a. fold q.
  (* e^{-k^2} (e^{2k} - 1) < e^{-(k^2 - 2k)} <= 1 / (1 + k^2 - 2k) < q *)
  assert (G : 1 + (khi * khi - 2 * khi) <= exp (khi * khi - 2 * khi)) by (apply exp_ge1; nra).
  assert (T : exp (- (khi * khi)) * exp (khi * 2) * exp (khi * khi - 2 * khi) = 1).
  { rewrite <- !exp_plus. replace (- (khi * khi) + khi * 2 + (khi * khi - 2 * khi)) with 0 by ring. apply exp_0. }
  set (X := exp (- (khi * khi)) * exp (khi * 2)) in *. set (Y := exp (khi * khi - 2 * khi)) in *.
  assert (PX : 0 < X) by (apply Rmult_lt_0_compat; apply exp_pos).
  assert (PK : 0 < exp (- (khi * khi))) by apply exp_pos.
  replace (exp (- (khi * khi)) * (exp (khi * 2) - 1)) with (X - exp (- (khi * khi))) by (unfold X; ring).
  assert (YQ : 1 < q * Y).
  { assert (q * / q = 1) by (field; lra). assert (/ q < Y) by nra. nra. }
  assert (X < q); [|lra]. apply Rnot_le_lt. intros C. nra.
Qed.

(** ** invariance *)
Lemma number_dec (r : list (option C)) : (exists z, In (Some z) r) \/ (forall z, ~ In (Some z) r).
Proof.
  induction r as [|[z|] r IH]; [right; auto|left; exists z; left; reflexivity|].
  destruct IH as [(z & H)|H]; [left; exists z; right; exact H|right]. intros z [E|E]; [discriminate|apply (H z E)].
Qed.

Lemma mad_perm r r' : Permutation r r' -> mad_scale (vnorm r') = mad_scale (vnorm r).
Proof.
  intros P. destruct (number_dec r) as [H|H].
  - destruct (scale_exists r H) as (s & Hs). rewrite (scale_spec _ _ Hs). apply scale_spec. exact (scale_perm _ _ _ P Hs).
  - rewrite (scale_none r H). apply scale_none. intros z Hz. apply (H z). apply Permutation_in with r'; [symmetry; exact P|exact Hz].
Qed.

Lemma mad_rescale r c : mad_scale (vnorm (map (option_map (Cmult c)) r)) = option_map (Rmult (Cmod c)) (mad_scale (vnorm r)).
Proof.
  destruct (number_dec r) as [H|H].
  - destruct (scale_exists r H) as (s & Hs). rewrite (scale_spec _ _ Hs). apply scale_spec. apply scale_scaled. exact Hs.
  - rewrite (scale_none r H). apply scale_none. intros z Hz. apply in_map_iff in Hz as ([x|] & E & Hx); [|discriminate]. apply (H x Hx).
Qed.

Lemma combine_map {A B} (f : A -> B) l : combine l (map f l) = map (fun x => (x, f x)) l.
Proof. induction l as [|x l IH]; simpl; [reflexivity|]. f_equal. exact IH. Qed.

Lemma huber_perm alpha r r' : Permutation r r' -> Permutation (combine r (huber alpha r)) (combine r' (huber alpha r')).
Proof.
  intros P. unfold huber. cbv zeta. rewrite (mad_perm r r' P). generalize (mad_scale (vnorm r)). intros m. unfold vnorm. rewrite !map_map, !combine_map.
  apply Permutation_map. exact P.
Qed.
Lemma thomson_perm xi s r r' : Permutation r r' -> Permutation (combine r (thomson xi s r)) (combine r' (thomson xi s r')).
Proof.
  intros P. unfold thomson, vnorm. rewrite (Permutation_length P), !map_map, !combine_map. apply Permutation_map. exact P.
Qed.

Lemma xdiv_scale c x y : 0 < c -> xdiv (Fin (c * x)) (Fin (c * y)) = xdiv (Fin x) (Fin y).
Proof.
  intros Hc. simpl. destruct (Req_EM_T y 0) as [->|N].
  - destruct (Req_EM_T (c * 0) 0); [|exfalso; lra]. unfold infinite.
    destruct (Rlt_dec 0 (c * x)), (Rlt_dec 0 x); try reflexivity; try nra.
    destruct (Rlt_dec (c * x) 0), (Rlt_dec x 0); try reflexivity; nra.
  - destruct (Req_EM_T (c * y) 0) as [E|_]; [apply Rmult_integral in E; lra|]. f_equal. field. split; lra.
Qed.

Lemma huber_rescale alpha r c : c <> RtoC 0 -> huber alpha (map (option_map (Cmult c)) r) = huber alpha r.
Proof.
  intros Hc. assert (Pc : 0 < Cmod c) by (apply Cmod_gt_0; exact Hc).
  unfold huber. cbv zeta. rewrite mad_rescale. generalize (mad_scale (vnorm r)). intros m. unfold vnorm. rewrite !map_map. apply map_ext. intros [z|]; simpl.
  - rewrite Cmod_mult. destruct m as [s|]; simpl; [|reflexivity].
    replace (alpha * (Cmod c * s)) with (Cmod c * (alpha * s)) by ring. f_equal. apply (xdiv_scale (Cmod c) (alpha * s) (Cmod z) Pc).
  - destruct m as [s|]; reflexivity.
Qed.

Lemma thomson_rescale xi r c : c <> RtoC 0 ->
  let r' := map (option_map (Cmult c)) r in
  thomson xi (mad_scale (vnorm r')) r' = thomson xi (mad_scale (vnorm r)) r.
Proof.
  intros Hc r'. assert (Pc : 0 < Cmod c) by (apply Cmod_gt_0; exact Hc).
  unfold r'. rewrite mad_rescale. generalize (mad_scale (vnorm r)). intros m. unfold thomson. rewrite map_length. unfold vnorm. rewrite !map_map. apply map_ext. intros [z|]; simpl.
  - rewrite Cmod_mult. destruct m as [s|]; simpl; [|reflexivity].
    f_equal. apply (xdiv_scale (Cmod c) (Cmod z) s Pc).
  - destruct m as [s|]; reflexivity.
Qed.

Lemma thomson_value xi r s i z : nth_error r i = Some (Some z) ->
  nth_error (thomson xi (Some s) r) i = Some (expexp (xdiv (Fin (Cmod z)) (Fin s)) (Fin (thomson_xi xi (length r)))).
Proof. intros E. rewrite (thomson_nth _ _ _ _ _ E). reflexivity. Qed.

Lemma thomson_formula xi r s i z : 0 < s -> nth_error r i = Some (Some z) ->
  exists t, match xi with Some x => t = x | None => 0 < t /\ t * t = 2 * ln (2 * INR (length r)) end /\
  nth_error (thomson xi (Some s) r) i = Some (Fin (exp (exp (- (t * t)) - exp (t * (Cmod z / s - t))))).
Proof.
  intros Hs E. exists (thomson_xi xi (length r)). split; [|rewrite (thomson_value xi r s i z E), (thomson_pos _ s (Cmod z) Hs); reflexivity].
  destruct xi as [x|]; [reflexivity|]. assert (Hn : (0 < length r)%nat) by (destruct r; [destruct i; discriminate|simpl; lia]).
  split; [apply (thomson_xi_pos None); [exact Hn|exact I]|]. simpl. apply sqrt_sqrt.
  assert (1 <= INR (length r)) by (apply (le_INR 1); lia). assert (0 < ln (2 * INR (length r))) by (rewrite <- ln_1; apply ln_increasing; lra). lra.
Qed.
Lemma thomson_nan xi s r i x : nth_error r i = Some x -> s = None \/ x = None -> nth_error (thomson xi s r) i = Some NaN.
Proof. intros E H. rewrite (thomson_nth _ _ _ _ _ E). destruct H as [->| ->]; [destruct x; reflexivity|reflexivity]. Qed.
Lemma hat_formula lower khi y : 0 < lower -> 0 < y ->
  hat_factor lower khi y = Fin (exp (exp (- (khi * khi)) - exp (khi * (y - khi))) * exp (exp (- (ln lower * ln lower)) - exp (ln lower * (ln y - ln lower)))).
Proof. intros Hl Hy. rewrite hat_pos by assumption. reflexivity. Qed.

(** ** majorities *)
Lemma scale_within r l s a b : numbers r l -> mostly_within (map Cmod l) a b -> scale_of r s -> 0 <= s /\ s * (44845 / 100000) <= b - a.
Proof.
  intros N W H. split; [apply (scale_nonneg r); exact H|]. destruct H as (l' & d & N' & M & ->).
  apply numbers_somes in N, N'. subst. apply (mad_within _ _ _ _ W M).
Qed.
