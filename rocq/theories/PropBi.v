(** Bounded-influence weights over the iterations of an estimation (C86). *)
From Coq Require Import Reals Lra.
From Coquelicot Require Import Complex.
From Verif Require Import Base BaseLemmas Arith MestModel SpecMest WeightModel RobustModel SpecRobust RobustProofs RobustWeights RobustSamples BiModel SpecBi BiProofs BiSamples.
Open Scope R_scope.

(** ** C86.
    [quad b w] are the quadratic forms of the rows, obtained from the normal matrix
    with weights [w] (the scalar one being [None]); with non-negative weights they are
    non-negative (C78). The weights of each iteration are those of the robust function,
    zero on the rejected rows, times the product of the hat factors of the iterations
    so far. *)
Theorem C86_run : forall (E B Z' : Type) solve residual wnorm quad cols (e : list E) (b : list B) lower khi id inner s0 l
    (h : heap (realW E B Z' solve residual wnorm quad cols)) ws h',
  let K := realW E B Z' solve residual wnorm quad cols in
  let N := length b in
  quad b None = quad b (Some (repeat (Fin 1) N)) ->
  (forall w q, nonneg N w -> quad b (Some (map Fin w)) = Ok q -> exists qs, q = map Fin qs /\ nonneg N qs) ->
  (0 < cols b)%nat -> 0 < lower < 1 -> 0 < khi ->
  robust E B Z' solve residual wnorm inner -> own E B Z' solve residual wnorm inner id ->
  Forall (usable N) l -> match l with c :: _ => scale_of (fst c) s0 | [] => True end -> 0 < s0 ->
  calls (call K (BoundedInfluence id inner lower khi)) e b 0 l h ws h' ->
  exists us rws, ws = map (map Fin) rws /\
    bi_run lower khi (INR (cols b)) (fun w qs => quad b (Some (map Fin w)) = Ok (map Fin qs)) N (repeat 1 N) (repeat 1 N) us rws /\
    Forall2 (fun c u => masked (robust_weights E B Z' solve residual wnorm inner s0 (fst c)) (snd c) u /\ nonneg N u /\ Forall (fun x => x <= 1) u) l us.
Proof.
  intros E B Z' solve residual wnorm quad cols e b lower khi id inner s0 l h ws h' K N Q1 Q2 Hc Hl Hk Hr Ho Hu Hs Hs0 H.
  apply (bi_calls E B Z' solve residual wnorm quad cols e b Q1 Q2 Hc lower khi Hl Hk id inner s0 Hr Ho Hs0 l 0 h ws h'); auto.
  - split; [destruct inner; simpl; auto; congruence|]. split; [apply weights_ones|]. split; [apply weights_ones|auto].
  - intros _. exact Hs.
Qed.
Print Assumptions C86_run.

(** In particular: all weights are numbers, between 0 and a power of the bound of
    C51; rejected rows have the weight zero; and a weight that became zero stays zero. *)
Theorem C86_bounds : forall (E B Z' : Type) solve residual wnorm quad cols (e : list E) (b : list B) lower khi id inner s0 l
    (h : heap (realW E B Z' solve residual wnorm quad cols)) ws h',
  let K := realW E B Z' solve residual wnorm quad cols in
  let N := length b in
  quad b None = quad b (Some (repeat (Fin 1) N)) ->
  (forall w q, nonneg N w -> quad b (Some (map Fin w)) = Ok q -> exists qs, q = map Fin qs /\ nonneg N qs) ->
  (0 < cols b)%nat -> 0 < lower < 1 -> 0 < khi ->
  robust E B Z' solve residual wnorm inner -> own E B Z' solve residual wnorm inner id ->
  Forall (usable N) l -> match l with c :: _ => scale_of (fst c) s0 | [] => True end -> 0 < s0 ->
  calls (call K (BoundedInfluence id inner lower khi)) e b 0 l h ws h' ->
  length ws = length l /\
  forall n w r iv, nth_error ws n = Some w -> nth_error l n = Some (r, iv) -> length w = N /\
  forall j, (j < N)%nat -> exists v, nth_error w j = Some (Fin v) /\
    0 <= v <= exp (exp (- (ln lower * ln lower))) ^ (S n) /\
    (In (Z.of_nat j) iv -> v = 0) /\
    (v = 0 -> forall m w', (n <= m)%nat -> nth_error ws m = Some w' -> nth_error w' j = Some (Fin 0)).
Proof.
  intros E B Z' solve residual wnorm quad cols e b lower khi id inner s0 l h ws h' K N Q1 Q2 Hc Hl Hk Hr Ho Hu Hs Hs0 H.
  assert (Len : length ws = length l) by (clear -H; induction H as [|? ? ? ? ? ? ? ? ? ? ? IH]; [reflexivity|simpl; f_equal; exact IH]).
  destruct (C86_run E B Z' solve residual wnorm quad cols e b lower khi id inner s0 l h ws h' Q1 Q2 Hc Hl Hk Hr Ho Hu Hs Hs0 H) as (us & rws & -> & Br & F).
  split; [exact Len|]. clear H.
  assert (P : 0 < INR (cols b)) by (apply lt_0_INR; exact Hc).
  assert (Hq : forall w qs, quad b (Some (map Fin w)) = Ok (map Fin qs) -> length w = N -> Forall (Rle 0) w -> Forall (Rle 0) qs).
  { intros w qs Hw L Fw. destruct (Q2 w _ (conj L Fw) Hw) as (qs' & Eq & [_ Fq]).
    enough (G : qs = qs') by (rewrite G; exact Fq). clear -Eq. revert qs' Eq. induction qs as [|x qs IH]; intros [|y qs'] Eq; try discriminate; [reflexivity|].
    injection Eq as -> Eq. f_equal. apply IH, Eq. }
  set (q := fun w qs => quad b (Some (map Fin w)) = Ok (map Fin qs)) in *.
  set (q' := fun w qs => q w qs /\ length w = N).
  assert (Br' : forall prev hat us ws, bi_run lower khi (INR (cols b)) q N prev hat us ws -> length prev = N -> bi_run lower khi (INR (cols b)) q' N prev hat us ws).
  { clear. induction 1 as [|prev hat u us qs hat' w ws Hqq L1 L2 L3 Hj Br IH]; intros L; [constructor|].
    exact (br_cons lower khi _ q' N prev hat u us qs hat' w ws (conj Hqq L) L1 L2 L3 Hj (IH L3)). }
  apply Br' in Br; [|apply repeat_length].
  assert (Hq' : forall w qs, q' w qs -> Forall (Rle 0) w -> Forall (Rle 0) qs) by (intros w qs [G1 G2] G3; eapply Hq; eassumption).
  assert (F1 : Forall (Rle 0) (repeat 1 N)) by (apply Forall_forall; intros x Hx; apply repeat_spec in Hx; lra).
  assert (Fu : Forall (fun u => length u = N /\ Forall (Rle 0) u) us).
  { clear -F. induction F as [|c u l us (_ & Hu & _) F IH]; constructor; auto. }
  intros n w r iv Hn Hl'. rewrite nth_error_map in Hn. destruct (nth_error rws n) as [rw|] eqn:En; [|discriminate]. injection Hn as <-.
  destruct (run_bounds lower khi (INR (cols b)) q' N Hl Hk P Hq' _ _ _ _ Br (repeat_length _ _) (repeat_length _ _) F1 F1 Fu n rw En) as (u & U1 & U2 & U3).
  split; [rewrite map_length; exact U2|]. intros j Hj. exists (nth j rw 0). split; [rewrite nth_error_map, (nth_in rw 0) by lia; reflexivity|].
  destruct (U3 j Hj) as (V1 & V2 & _). destruct (Forall2_nth_error _ _ _ _ _ F Hl') as (u' & U1' & (M1 & M2) & [W1 W2] & W3).
  rewrite U1 in U1'. injection U1' as <-. change (length u = N) in W1.
  assert (E1 : nth j (repeat 1 N) 0 = 1).
  { assert (G : nth_error (repeat 1 N) j = Some 1) by (apply nth_error_repeat; exact Hj). rewrite (nth_in _ 0) in G by (rewrite repeat_length; exact Hj). congruence. }
  match type of V1 with _ <= _ <= _ * (?x * _) => change x with (nth j (repeat 1 N) 0) in V1 end. rewrite E1 in V1. rewrite Rmult_1_l in V1. split; [|split].
  - split; [apply V1|]. eapply Rle_trans; [apply V1|]. rewrite <- (Rmult_1_l (_ ^ _)) at 2. apply Rmult_le_compat_r; [left; apply pow_lt, exp_pos|].
    rewrite Forall_forall in W3. apply W3, nth_In. lia.
  - intros Hin. apply V2. apply (M2 j); [lia|exact Hin].
  - intros Z m w' Hnm Hm. rewrite nth_error_map in Hm. destruct (nth_error rws m) as [rw'|] eqn:Em; [|discriminate]. injection Hm as <-.
    destruct (run_bounds lower khi (INR (cols b)) q' N Hl Hk P Hq' _ _ _ _ Br (repeat_length _ _) (repeat_length _ _) F1 F1 Fu m rw' Em) as (_ & _ & L' & _).
    rewrite nth_error_map, (nth_in rw' 0) by lia. cbn [option_map]. do 2 f_equal.
    exact (run_sticky lower khi (INR (cols b)) q' N Hl Hk P Hq' _ _ _ _ Br (repeat_length _ _) (repeat_length _ _) F1 F1 Fu n m rw rw' j Hnm Hj En Em Z).
Qed.
Print Assumptions C86_bounds.

(** A call fails only if the normal matrix of the previous weights is singular. *)
Theorem C86_failures : forall (E B Z' : Type) solve residual wnorm quad cols (e : list E) (b : list B) lower khi id inner s0 l
    (h : heap (realW E B Z' solve residual wnorm quad cols)),
  let K := realW E B Z' solve residual wnorm quad cols in
  let N := length b in
  let f := call K (BoundedInfluence id inner lower khi) in
  quad b None = quad b (Some (repeat (Fin 1) N)) ->
  (forall w q, nonneg N w -> quad b (Some (map Fin w)) = Ok q -> exists qs, q = map Fin qs /\ nonneg N qs) ->
  (0 < cols b)%nat -> 0 < lower < 1 -> 0 < khi ->
  robust E B Z' solve residual wnorm inner -> own E B Z' solve residual wnorm inner id ->
  Forall (usable N) l -> match l with c :: _ => scale_of (fst c) s0 | [] => True end -> 0 < s0 ->
  exists l1 l2 ws h1, l = l1 ++ l2 /\ calls f e b 0 l1 h (map (map Fin) ws) h1 /\
  (l2 = [] \/ exists c l3 x h2, l2 = c :: l3 /\ quad b (Some (map Fin (last ws (repeat 1 N)))) = Err x /\ f (length l1) (fst c) e b (snd c) h1 = (Err x, h2)).
Proof.
  intros E B Z' solve residual wnorm quad cols e b lower khi id inner s0 l h K N f Q1 Q2 Hc Hl Hk Hr Ho Hu Hs Hs0.
  apply (bi_outcome E B Z' solve residual wnorm quad cols e b Q1 Q2 Hc lower khi Hl Hk id inner s0 Hr Ho Hs0 l 0 h (repeat 1 N) (repeat 1 N)); auto.
  - split; [destruct inner; simpl; auto; congruence|]. split; [apply weights_ones|]. split; [apply weights_ones|auto].
  - intros _. exact Hs.
Qed.
Print Assumptions C86_failures.

(** four rows of one input, the second one rejected *)
Example C86_nonvacuous : forall solve residual wnorm,
  let k := realK R R R solve residual wnorm in
  let K := realW R R R solve residual wnorm quad1 (fun _ => 1%nat) in
  quad1 b1 None = quad1 b1 (Some (repeat (Fin 1) (length b1))) /\
  (forall w q, nonneg (length b1) w -> quad1 b1 (Some (map Fin w)) = Ok q -> exists qs, q = map Fin qs /\ nonneg (length b1) qs) /\
  robust R R R solve residual wnorm (Huber (k := k) (3 / 2)) /\
  usable (length b1) (sample, [1%Z]) /\ scale_of sample (100000 / 44845) /\
  exists w h', calls (call K (BoundedInfluence (k := k) 0 (Huber (k := k) (3 / 2)) (1 / 10) 5)) [] b1 0 [(sample, [1%Z])] (fresh K) [w] h'.
Proof.
  intros solve residual wnorm k K. split; [apply quad1_one|]. split; [apply quad1_fin|]. split; [constructor; lra|]. split; [apply sample_usable|]. split; [apply sample_scale|].
  destruct (C86_failures R R R solve residual wnorm quad1 (fun _ => 1%nat) [] b1 (1 / 10) 5 0 (Huber (k := k) (3 / 2)) (100000 / 44845) [(sample, [1%Z])] (fresh K)
    (quad1_one b1) (quad1_fin b1) Nat.lt_0_1 ltac:(lra) ltac:(lra) ltac:(constructor; lra) I ltac:(constructor; [apply sample_usable|constructor]) sample_scale ltac:(lra))
    as (l1 & l2 & ws & h1 & El & Hcalls & Hl).
  destruct l1 as [|c l1].
  - exfalso. inversion Hcalls; subst. destruct ws; [|discriminate]. simpl in El. subst l2. destruct Hl as [Hl|(c & l3 & x & h2 & _ & Q & _)]; [discriminate|].
    unfold quad1 in Q. rewrite num_fin in Q. destruct (Req_EM_T _ 0) as [A|A]; [|discriminate]. revert A. unfold map2, b1. simpl. lra.
  - injection El as <- El. destruct l1; [|discriminate]. inversion Hcalls as [|? ? ? ? ? w h0 ws' ? Hw Hrest]; subst. exists w, h0. econstructor; [exact Hw|constructor].
Qed.
