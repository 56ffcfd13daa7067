(** Bounded-influence weights (C86). *)
From Coq Require Import Reals Lra.
From Coquelicot Require Import Complex.
From Verif Require Import Base BaseLemmas Arith MestModel SpecMest MestProofs MestRun WeightModel RobustModel SpecRobust RobustProofs RobustWeights BiModel SpecBi.
Open Scope R_scope.

Lemma nth_in {T} (l : list T) d i : (i < length l)%nat -> nth_error l i = Some (nth i l d).
Proof. apply nth_error_nth'. Qed.

Lemma map2_length {A B C} (f : A -> B -> C) l l' : length l = length l' -> length (map2 f l l') = length l.
Proof. intros H. unfold map2. rewrite map_length, combine_length. lia. Qed.
Lemma map2_nth {A B C} (f : A -> B -> C) l l' j a b : nth_error l j = Some a -> nth_error l' j = Some b -> nth_error (map2 f l l') j = Some (f a b).
Proof. revert l' j. induction l as [|x l IH]; intros [|y l'] [|j]; simpl; try discriminate; [intros [= ->] [= ->]; reflexivity|]. apply IH. Qed.

(** a list of numbers *)
Lemma all_fin (l : list ext) : (forall j, (j < length l)%nat -> exists x, nth_error l j = Some (Fin x)) -> exists m, l = map Fin m.
Proof.
  induction l as [|a l IH]; intros H; [exists []; reflexivity|].
  destruct (H 0%nat ltac:(simpl; lia)) as (x & E). injection E as ->.
  destruct IH as (m & ->); [intros j Hj; apply (H (S j)); simpl; lia|]. exists (x :: m). reflexivity.
Qed.

Lemma xsum_fin m : xsum (map Fin m) = Fin (rsum m).
Proof.
  unfold xsum. assert (G : forall m a, fold_left xadd (map Fin m) (Fin a) = Fin (a + rsum m)).
  { clear. induction m as [|x m IH]; intros a; simpl; [f_equal; lra|]. rewrite IH. f_equal. lra. }
  rewrite G. f_equal. lra.
Qed.
Lemma rsum_nonneg m : Forall (Rle 0) m -> 0 <= rsum m.
Proof. induction 1; simpl; lra. Qed.
Lemma rsum_ones n : rsum (repeat 1 n) = INR n.
Proof. induction n as [|n IH]; [reflexivity|]. rewrite S_INR. simpl. rewrite IH. lra. Qed.

Lemma hat_value lower khi y : 0 < lower < 1 -> 0 < khi -> 0 <= y ->
  exists f, hat_factor lower khi y = Fin f /\ 0 <= f /\ f <= exp (exp (- (ln lower * ln lower))) /\ (y = 0 -> f = 0) /\
  forall h, hat_next lower khi (Fin h) (Fin y) = Fin (h * f).
Proof.
  intros Hl Hk Hy. destruct (Req_dec y 0) as [->|N].
  - exists 0. split; [apply hat_zero; exact Hl|]. split; [lra|]. split; [left; apply exp_pos|]. split; [reflexivity|].
    intros h. pose proof (hat_zero lower khi Hl) as Z. unfold hat_factor in Z. unfold hat_next.
    rewrite expexp_fin in *. destruct (expexp (xlog (Fin 0)) (xlog (Fin lower))) as [x| | |]; simpl in Z |- *.
    + injection Z as Z. f_equal. pose proof (exp_pos (exp (- (khi * khi)) - exp (khi * (0 - khi)))) as P.
      apply Rmult_integral in Z as [Z| ->]; [lra|ring].
    + unfold infinite in Z. destruct (Rlt_dec _ _); [discriminate|]. destruct (Rlt_dec _ _); discriminate.
    + unfold infinite in Z. destruct (Rlt_dec _ _); [discriminate|]. destruct (Rlt_dec _ _); discriminate.
    + discriminate.
  - assert (P : 0 < y) by lra. exists (tw khi y * tw (ln lower) (ln y)). split; [apply hat_pos; lra|].
    destruct (hat_bound lower khi y ltac:(lra) Hk P) as (v & E & V). rewrite hat_pos in E by lra. injection E as E. rewrite E.
    split; [lra|]. split; [lra|]. split; [lra|]. intros h. unfold hat_next. simpl xlog. destruct (Rlt_dec 0 y); [|lra]. destruct (Rlt_dec 0 lower); [|lra].
    rewrite !expexp_fin. cbn [xmul]. fold (tw khi y). fold (tw (ln lower) (ln y)). f_equal. rewrite <- E. ring.
Qed.

Section Bi.
Variables (E B Z' : Type) (solve : list E -> list B -> option (list ext) -> res Z') (residual : list E -> list B -> Z' -> list (option C))
  (wnorm : list (option C) -> option (list ext) -> R) (quad : list B -> option (list ext) -> res (list ext)) (cols : list B -> nat).
Notation k := (realK E B Z' solve residual wnorm).
Notation K := (realW E B Z' solve residual wnorm quad cols).
Variables (e : list E) (b : list B).
Notation N := (length b).

Notation weights := (nonneg N).
Hypothesis quad_one : quad b None = quad b (Some (repeat (Fin 1) N)).
Hypothesis quad_fin : forall w q, weights w -> quad b (Some (map Fin w)) = Ok q -> exists qs, q = map Fin qs /\ weights qs.
Hypothesis cols_pos : (0 < cols b)%nat.
Variables (lower khi : R).
Hypothesis Hlower : 0 < lower < 1.
Hypothesis Hkhi : 0 < khi.

Definition qrel (w qs : list R) : Prop := quad b (Some (map Fin w)) = Ok (map Fin qs).

Definition rep (p : biprev (list ext) (list ext) ext) (prev hat : list R) : Prop :=
  weights prev /\ weights hat /\ bi_trace p = Fin (rsum prev) /\
  ((bi_weight p = None /\ bi_hat p = None /\ prev = repeat 1 N /\ hat = repeat 1 N) \/
   (bi_weight p = Some (map Fin prev) /\ bi_hat p = Some (map Fin hat))).

Lemma weights_nth w j : weights w -> (j < N)%nat -> 0 <= nth j w 0.
Proof. intros [L F] H. rewrite Forall_forall in F. apply F, nth_In. lia. Qed.

Lemma map_const_map2 {S T} (f : ext -> S -> T) (l : list S) n : length l = n -> map (f (Fin 1)) l = map2 f (repeat (Fin 1) n) l.
Proof. intros <-. unfold map2. induction l as [|x l IH]; [reflexivity|]. simpl. f_equal. exact IH. Qed.
Lemma map_repeat' {S T} (f : S -> T) x n : map f (repeat x n) = repeat (f x) n.
Proof. induction n; simpl; congruence. Qed.

Lemma formula_real p prev hat u : rep p prev hat -> weights u ->
  (exists x, quad b (Some (map Fin prev)) = Err x /\ bi_formula B quad cols lower khi b p (map Fin u) = Err x) \/
  exists qs hat' w, qrel prev qs /\ length qs = N /\ weights hat' /\ weights w /\
    (forall j, (j < N)%nat -> exists f,
       hat_factor lower khi (rsum prev * (nth j prev 0 * nth j qs 0) / INR (cols b)) = Fin f /\
       nth j hat' 0 = nth j hat 0 * f /\ nth j w 0 = nth j u 0 * nth j hat' 0) /\
    bi_formula B quad cols lower khi b p (map Fin u) = Ok (map Fin w, Fin (rsum w), map Fin hat').
Proof.
  intros (Wp & Wh & Tr & R) Wu.
  assert (Q : bi_formula B quad cols lower khi b p (map Fin u) =
    bind (quad b (Some (map Fin prev))) (fun q =>
      let y := map (fun h => xdiv (xmul (Fin (rsum prev)) h) (Fin (INR (cols b)))) (map2 xmul (map Fin prev) q) in
      let h' := map2 (hat_next lower khi) (map Fin hat) y in
      let biw := map2 xmul (map Fin u) h' in Ok (biw, xsum biw, h'))).
  { unfold bi_formula. rewrite Tr. destruct R as [(R1 & R2 & -> & ->)|(R1 & R2)]; rewrite R1, R2; [|reflexivity].
    rewrite map_repeat'. rewrite quad_one. destruct (quad b (Some (repeat (Fin 1) N))) as [q|x] eqn:Eq; [|reflexivity]. cbn [bind].
    rewrite <- (map_repeat' Fin) in Eq. destruct (quad_fin _ _ Wp Eq) as (qs & -> & [Lq _]).
    rewrite (map_const_map2 xmul (map Fin qs) N) by (rewrite map_length; exact Lq). cbv zeta.
    rewrite (map_const_map2 (hat_next lower khi)) with (n := N); [reflexivity|].
    rewrite map_length, map2_length; rewrite ?map_length, ?repeat_length; lia. }
  rewrite Q. clear Q. destruct (quad b (Some (map Fin prev))) as [q|x] eqn:Eq; [|left; eauto]. right. cbn [bind]. cbv zeta.
  destruct (quad_fin prev q Wp Eq) as (qs & -> & Wq).
  set (y := map _ (map2 xmul _ _)). set (h' := map2 (hat_next lower khi) _ _). set (biw := map2 xmul _ _).
  assert (P : 0 < INR (cols b)) by (apply lt_0_INR; exact cols_pos).
  pose proof Wp as [Lp _]. pose proof Wh as [Lh _]. pose proof Wq as [Lq _]. pose proof Wu as [Lu _].
  assert (Ly : length y = N) by (unfold y; rewrite map_length, map2_length; rewrite !map_length; lia).
  assert (Lh' : length h' = N) by (unfold h'; rewrite map2_length; rewrite map_length; lia).
  assert (Lb : length biw = N) by (unfold biw; rewrite map2_length; rewrite map_length; lia).
  assert (Hy : forall j, (j < N)%nat -> nth_error y j = Some (Fin (rsum prev * (nth j prev 0 * nth j qs 0) / INR (cols b))) /\ 0 <= rsum prev * (nth j prev 0 * nth j qs 0) / INR (cols b)).
  { intros j Hj. split.
    - unfold y. rewrite nth_error_map. rewrite (map2_nth xmul (map Fin prev) (map Fin qs) j (Fin (nth j prev 0)) (Fin (nth j qs 0))).
      + simpl. destruct (Req_EM_T (INR (cols b)) 0); [lra|reflexivity].
      + rewrite nth_error_map, (nth_in prev 0) by lia. reflexivity.
      + rewrite nth_error_map, (nth_in qs 0) by lia. reflexivity.
    - pose proof (weights_nth prev j Wp Hj). pose proof (weights_nth qs j Wq Hj). destruct Wp as [_ Fp]. pose proof (rsum_nonneg prev Fp).
      apply Rmult_le_pos; [apply Rmult_le_pos; [assumption|apply Rmult_le_pos; assumption]|left; apply Rinv_0_lt_compat; exact P]. }
  assert (Hh : forall j, (j < N)%nat -> exists f, hat_factor lower khi (rsum prev * (nth j prev 0 * nth j qs 0) / INR (cols b)) = Fin f /\ 0 <= f /\
     nth_error h' j = Some (Fin (nth j hat 0 * f)) /\ nth_error biw j = Some (Fin (nth j u 0 * (nth j hat 0 * f)))).
  { intros j Hj. destruct (Hy j Hj) as (Hy1 & Hy2). destruct (hat_value lower khi _ Hlower Hkhi Hy2) as (f & F1 & F2 & _ & _ & F3).
    exists f. split; [exact F1|]. split; [exact F2|].
    assert (G : nth_error h' j = Some (Fin (nth j hat 0 * f))).
    { unfold h'. rewrite <- F3. apply map2_nth; [|exact Hy1]. rewrite nth_error_map, (nth_in hat 0) by lia. reflexivity. }
    split; [exact G|]. unfold biw. change (Fin (nth j u 0 * (nth j hat 0 * f))) with (xmul (Fin (nth j u 0)) (Fin (nth j hat 0 * f))).
    apply map2_nth; [|exact G]. rewrite nth_error_map, (nth_in u 0) by lia. reflexivity. }
  destruct (all_fin h') as (hs & Eh). { intros j Hj. destruct (Hh j ltac:(lia)) as (f & _ & _ & G & _). eauto. }
  destruct (all_fin biw) as (ws & Eb). { intros j Hj. destruct (Hh j ltac:(lia)) as (f & _ & _ & _ & G). eauto. }
  assert (Lhs : length hs = N) by (rewrite <- Lh', Eh, map_length; reflexivity).
  assert (Lws : length ws = N) by (rewrite <- Lb, Eb, map_length; reflexivity).
  assert (V : forall j, (j < N)%nat -> exists f, hat_factor lower khi (rsum prev * (nth j prev 0 * nth j qs 0) / INR (cols b)) = Fin f /\ 0 <= f /\
     nth j hs 0 = nth j hat 0 * f /\ nth j ws 0 = nth j u 0 * (nth j hat 0 * f)).
  { intros j Hj. destruct (Hh j Hj) as (f & F1 & F2 & G1 & G2). exists f. split; [exact F1|]. split; [exact F2|].
    rewrite Eh, nth_error_map, (nth_in hs 0) in G1 by lia. rewrite Eb, nth_error_map, (nth_in ws 0) in G2 by lia.
    injection G1 as G1. injection G2 as G2. auto. }
  exists qs, hs, ws. split; [exact Eq|]. split; [exact Lq|]. split; [|split; [|split]].
  - split; [exact Lhs|]. apply Forall_forall. intros x Hx. apply (In_nth _ _ 0) in Hx as (j & Hj & <-).
    destruct (V j ltac:(lia)) as (f & _ & F2 & -> & _). pose proof (weights_nth hat j Wh ltac:(lia)). nra.
  - split; [exact Lws|]. apply Forall_forall. intros x Hx. apply (In_nth _ _ 0) in Hx as (j & Hj & <-).
    destruct (V j ltac:(lia)) as (f & _ & F2 & _ & ->). pose proof (weights_nth hat j Wh ltac:(lia)). pose proof (weights_nth u j Wu ltac:(lia)).
    apply Rmult_le_pos; [assumption|nra].
  - intros j Hj. destruct (V j Hj) as (f & F1 & _ & F3 & F4). exists f. split; [exact F1|]. split; [exact F3|]. rewrite F3. exact F4.
  - rewrite Eh, Eb, xsum_fin. reflexivity.
Qed.

(** ** the robust functions *)
Notation robust := (robust E B Z' solve residual wnorm).
Notation robust_weights := (robust_weights E B Z' solve residual wnorm).
Notation own := (own E B Z' solve residual wnorm).
Definition stored (w : weight (k := k)) (it : nat) (s0 : R) (h : heap K) : Prop :=
  match w with Thomson i _ => it <> 0%nat -> h i = Some (SThomson K (Some s0)) | _ => True end.

Lemma robust_call w it r iv h s0 : robust w -> usable N (r, iv) -> 0 < s0 -> stored w it s0 h -> (it = 0%nat -> scale_of r s0) ->
  exists v h1, call K w it r e b iv h = (Ok (Some v), h1) /\ v = robust_weights w s0 r /\ (forall id, own w id -> h1 id = h id) /\ stored w (S it) s0 h1.
Proof.
  intros Rb (Hr & Hiv & Hn & s & Hs & Sc) Hs0 St H0. simpl in Hr, Hiv, Hn, Sc. destruct Rb as [alpha Ha|i xi Hxi].
  - do 2 eexists. split; [reflexivity|]. split; [reflexivity|]. split; [reflexivity|exact I].
  - cbn [call]. destruct it as [|it].
    + do 2 eexists. split; [reflexivity|]. simpl. rewrite (scale_spec r s0 (H0 eq_refl)). split; [destruct xi; reflexivity|]. split.
      * intros id Ho. unfold hset. simpl in Ho. destruct (Nat.eqb_spec id i); [congruence|reflexivity].
      * intros _. unfold hset. rewrite Nat.eqb_refl. reflexivity.
    + rewrite (St ltac:(discriminate)). do 2 eexists. split; [reflexivity|]. split; [destruct xi; reflexivity|]. split; [reflexivity|].
      intros _. apply St. discriminate.
Qed.

Lemma robust_values w s0 r iv : robust w -> usable N (r, iv) -> 0 < s0 ->
  exists u, masked (robust_weights w s0 r) iv u /\ weights u /\ Forall (fun x => x <= 1) u /\
    set_at (robust_weights w s0 r) iv (Fin 0) = Ok (map Fin u).
Proof.
  intros Rb (Hr & Hiv & Hn & s & Hs & Sc) Hs0. simpl in Hr, Hiv, Hn, Sc.
  set (v := robust_weights w s0 r).
  assert (Lv : length v = N) by (unfold v; destruct Rb; simpl; rewrite ?huber_length, ?thomson_length; exact Hr).
  assert (V : forall j, (j < N)%nat -> ~ In (Z.of_nat j) iv -> exists x, nth_error v j = Some (Fin x) /\ 0 <= x <= 1).
  { intros j Hj Hin. destruct (nth_error r j) as [[z|]|] eqn:Ez.
    - unfold v. destruct Rb as [alpha Ha|i xi Hxi]; simpl.
      + rewrite (huber_value alpha r s j z Sc Ez). destruct (huber_pos alpha s (Cmod z) Ha Hs (Cmod_ge_0 z)) as (x & -> & X & _). exists x. split; [reflexivity|lra].
      + rewrite (thomson_nth _ _ _ _ _ Ez). cbn [of_opt option_map]. rewrite thomson_pos by exact Hs0. eexists. split; [reflexivity|].
        pose proof (thomson_xi_pos xi (length r) ltac:(lia) Hxi) as P. set (x := thomson_xi xi (length r)) in *.
        pose proof (tw_pos x (Cmod z / s0)). pose proof (tw_le1 x (Cmod z / s0) P).
        assert (0 <= Cmod z / s0). { apply Rmult_le_pos; [apply Cmod_ge_0|left; apply Rinv_0_lt_compat; exact Hs0]. }
        split; [lra|auto].
    - exfalso. apply Hin, Hn; assumption.
    - apply nth_error_None in Ez. lia. }
  destruct (set_at_legal v iv (Fin 0)) as (l' & El); [rewrite Lv; exact Hiv|].
  pose proof (set_at_ok _ _ _ _ (legal_nn _ _ Hiv) El) as (_ & Ll & Hl).
  assert (F : forall j, (j < N)%nat -> exists x, nth_error l' j = Some (Fin x) /\ 0 <= x <= 1 /\ (In (Z.of_nat j) iv -> x = 0) /\ (~ In (Z.of_nat j) iv -> nth_error v j = Some (Fin x))).
  { intros j Hj. destruct (Hl j (nth j v NaN) (nth_in v NaN j ltac:(lia))) as [G1 G2]. destruct (in_dec Z.eq_dec (Z.of_nat j) iv) as [I|I].
    - exists 0. split; [apply G1, I|]. split; [lra|]. split; [reflexivity|contradiction].
    - destruct (V j Hj I) as (x & X & X1). exists x. split; [rewrite G2 by exact I; rewrite <- (nth_in v NaN) by lia; exact X|]. split; [exact X1|]. split; [contradiction|intros _; exact X]. }
  destruct (all_fin l') as (u & Eu). { intros j Hj. destruct (F j ltac:(lia)) as (x & G & _). eauto. }
  assert (Lu : length u = N) by (rewrite <- Lv, <- Ll, Eu, map_length; reflexivity).
  assert (W : forall j, (j < N)%nat -> 0 <= nth j u 0 <= 1 /\ (In (Z.of_nat j) iv -> nth j u 0 = 0) /\ (~ In (Z.of_nat j) iv -> nth_error v j = Some (Fin (nth j u 0)))).
  { intros j Hj. destruct (F j Hj) as (x & G & X). rewrite Eu, nth_error_map, (nth_in u 0) in G by lia. injection G as ->. exact X. }
  exists u. split; [|split; [|split]].
  - split; [lia|]. intros j Hj. destruct (W j ltac:(lia)) as (_ & W'). exact W'.
  - split; [exact Lu|]. apply Forall_forall. intros x Hx. apply (In_nth _ _ 0) in Hx as (j & Hj & <-). apply (W j). lia.
  - apply Forall_forall. intros x Hx. apply (In_nth _ _ 0) in Hx as (j & Hj & <-). apply (W j). lia.
  - rewrite El, Eu. reflexivity.
Qed.

(** ** one call, then all calls *)
Variables (id : nat) (inner : weight (k := k)) (s0 : R).
Hypothesis Hrobust : robust inner.
Hypothesis Hown : own inner id.
Hypothesis Hs0 : 0 < s0.
Notation bi := (BoundedInfluence (k := k) id inner lower khi).

(** the state before iteration [it] *)
Definition ready (it : nat) (h : heap K) (prev hat : list R) : Prop :=
  stored inner it s0 h /\ weights prev /\ weights hat /\
  match it with
  | O => prev = repeat 1 N /\ hat = repeat 1 N
  | S n => exists p, h id = Some (SBi K p) /\ bi_it p = Z.of_nat n /\ rep p prev hat
  end.

Lemma weights_ones : weights (repeat 1 N).
Proof. split; [apply repeat_length|]. apply Forall_forall. intros x Hx. apply repeat_spec in Hx. lra. Qed.

Lemma bi_call it r iv h prev hat : ready it h prev hat -> usable N (r, iv) -> (it = 0%nat -> scale_of r s0) ->
  exists u, masked (robust_weights inner s0 r) iv u /\ weights u /\ Forall (fun x => x <= 1) u /\
  ((exists x h1, quad b (Some (map Fin prev)) = Err x /\ call K bi it r e b iv h = (Err x, h1)) \/
   exists qs hat' w h1, qrel prev qs /\ length qs = N /\ weights hat' /\ weights w /\
    (forall j, (j < N)%nat -> exists f,
       hat_factor lower khi (rsum prev * (nth j prev 0 * nth j qs 0) / INR (cols b)) = Fin f /\
       nth j hat' 0 = nth j hat 0 * f /\ nth j w 0 = nth j u 0 * nth j hat' 0) /\
    call K bi it r e b iv h = (Ok (Some (map Fin w)), h1) /\ ready (S it) h1 w hat').
Proof.
  intros (St & Wp & Wh & Hst) Us H0.
  destruct (robust_values inner s0 r iv Hrobust Us Hs0) as (u & M & Wu & Le & Eset). exists u. do 3 (split; [assumption|]).
  assert (P : exists p h0, match it with O => hset K h id (SBi K (mkBi (-1) None (w_rows k K N) None)) | S _ => h end = h0 /\
    h0 id = Some (SBi K p) /\ (Z.of_nat it =? 1 + bi_it p)%Z = true /\ rep p prev hat /\ stored inner it s0 h0).
  { destruct it as [|n].
    - do 2 eexists. split; [reflexivity|]. unfold hset at 1. rewrite Nat.eqb_refl. split; [reflexivity|]. split; [reflexivity|]. split.
      + destruct Hst as [-> ->]. split; [exact Wp|]. split; [exact Wh|]. split; [simpl; rewrite rsum_ones; reflexivity|]. left. auto.
      + unfold stored in *. destruct inner; auto. intros C. exfalso. apply C. reflexivity.
    - destruct Hst as (p & Hp & Hit & R). exists p, h. split; [reflexivity|]. split; [exact Hp|]. split; [apply Z.eqb_eq; rewrite Hit; lia|]. auto. }
  destruct P as (p & h0 & Eh & Hp & Hit & R & St0).
  destruct (robust_call inner it r iv h0 s0 Hrobust Us Hs0 St0 H0) as (v & h2 & Ec & Ev & Hkeep & St2).
  assert (Q : call K bi it r e b iv h =
    match bi_formula B quad cols lower khi b p (map Fin u) with
    | Err x => (Err x, h2)
    | Ok (biw, tr, hat) => (Ok (Some biw), hset K h2 id (SBi K (mkBi (Z.of_nat it) (Some biw) tr (Some hat))))
    end).
  { cbn [call]. fold (@call k K). change (kB k) with B. rewrite Eh, Hp, Hit. rewrite Ec. cbn [bind of_option]. subst v. change (k_zero k) with (Fin 0).
    change (kW k) with ext. rewrite Eset. cbn [bind]. reflexivity. }
  rewrite Q. clear Q. destruct (formula_real p prev hat u R Wu) as [(x & Q1 & ->)|(qs & hat' & w & Q1 & Q2 & Q3 & Q4 & Q5 & ->)].
  - left. eauto.
  - right. exists qs, hat', w. eexists. do 4 (split; [assumption|]). split; [exact Q5|]. split; [reflexivity|]. split; [|split; [exact Q4|split; [exact Q3|]]].
    + unfold stored in *. destruct inner as [|alpha|i xi|]; auto. intros C. unfold hset. simpl in Hown. destruct (Nat.eqb_spec i id); [congruence|]. auto.
    + eexists. split; [unfold hset; rewrite Nat.eqb_refl; reflexivity|]. split; [reflexivity|]. split; [exact Q4|]. split; [exact Q3|]. split; [reflexivity|]. right. auto.
Qed.

Definition first_scale (it : nat) (l : list (list (option C) * list Z)) : Prop :=
  it = 0%nat -> match l with c :: _ => scale_of (fst c) s0 | [] => True end.

Lemma bi_calls l : forall it h ws h' prev hat, ready it h prev hat -> Forall (usable N) l -> first_scale it l ->
  calls (k := k) (call K bi) e b it l h ws h' ->
  exists us rws, ws = map (map Fin) rws /\ bi_run lower khi (INR (cols b)) qrel N prev hat us rws /\
    Forall2 (fun c u => masked (robust_weights inner s0 (fst c)) (snd c) u /\ weights u /\ Forall (fun x => x <= 1) u) l us.
Proof.
  induction l as [|[r iv] l IH]; intros it h ws h' prev hat Rd F Fs H; inversion H as [|? ? ? ? ? w h1 ws' ? Hc Hl]; subst.
  - exists [], []. split; [reflexivity|]. split; constructor.
  - inversion F as [|? ? F1 F2]; subst. destruct (bi_call it r iv h prev hat Rd F1) as (u & M & Wu & Le & [(x & h2 & _ & Q)|(qs & hat' & w' & h2 & Q1 & Q2 & Q3 & Q4 & Q5 & Q6 & Q7)]).
    + intros ->. exact (Fs eq_refl).
    + change (kE k) with E in *. change (kB k) with B in *. rewrite Hc in Q. discriminate.
    + change (kE k) with E in *. change (kB k) with B in *. change (kR k) with (option C) in *. rewrite Hc in Q6. injection Q6 as -> ->.
      destruct (IH _ _ _ _ _ _ Q7 F2 ltac:(intros C; discriminate C) Hl) as (us & rws & -> & Br & F3).
      exists (u :: us), (w' :: rws). split; [reflexivity|]. split; [|constructor; auto].
      econstructor; [exact Q1|exact Q2|apply Q3|apply Q4|exact Q5|exact Br].
Qed.

Lemma bi_outcome l : forall it h prev hat, ready it h prev hat -> Forall (usable N) l -> first_scale it l ->
  exists l1 l2 ws h1, l = l1 ++ l2 /\ calls (k := k) (call K bi) e b it l1 h (map (map Fin) ws) h1 /\
  (l2 = [] \/ exists c l3 x h2, l2 = c :: l3 /\ quad b (Some (map Fin (last ws prev))) = Err x /\
     call K bi (it + length l1)%nat (fst c) e b (snd c) h1 = (Err x, h2)).
Proof.
  induction l as [|[r iv] l IH]; intros it h prev hat Rd F Fs; [exists [], [], [], h; split; [reflexivity|]; split; [constructor|auto]|].
  inversion F as [|? ? F1 F2]; subst. destruct (bi_call it r iv h prev hat Rd F1) as (u & M & Wu & Le & [(x & h2 & Q & Q')|(qs & hat' & w' & h2 & Q1 & Q2 & Q3 & Q4 & Q5 & Q6 & Q7)]).
  - intros ->. exact (Fs eq_refl).
  - exists [], ((r, iv) :: l), [], h. split; [reflexivity|]. split; [constructor|]. right. exists (r, iv), l, x, h2. simpl. rewrite Nat.add_0_r. auto.
  - destruct (IH _ _ _ _ Q7 F2 ltac:(intros C; discriminate C)) as (l1 & l2 & ws & h3 & -> & Hc & Hl).
    exists ((r, iv) :: l1), l2, (w' :: ws), h3. split; [reflexivity|]. split; [simpl; econstructor; [exact Q6|exact Hc]|].
    destruct Hl as [->|(c & l3 & x & h4 & -> & X1 & X2)]; [auto|]. right. exists c, l3, x, h4. split; [reflexivity|].
    simpl length. rewrite Nat.add_succ_r. split; [|exact X2]. destruct ws as [|w2 ws]; [exact X1|].
    change (last (w' :: w2 :: ws) prev) with (last (w2 :: ws) prev). rewrite <- X1. f_equal. f_equal. f_equal.
    clear. revert w2. induction ws as [|w3 ws IH]; intros w2; [reflexivity|]. simpl in *. apply IH.
Qed.
End Bi.

(** ** what a run implies *)
Section Run.
Variables (lower khi p : R) (q : list R -> list R -> Prop) (N : nat).
Hypothesis Hlower : 0 < lower < 1.
Hypothesis Hkhi : 0 < khi.
Hypothesis Hp : 0 < p.
Hypothesis Hq : forall w qs, q w qs -> Forall (Rle 0) w -> Forall (Rle 0) qs.
Let c := exp (exp (- (ln lower * ln lower))).

Lemma lev_nonneg prev qs j : Forall (Rle 0) prev -> q prev qs -> (j < length prev)%nat -> (j < length qs)%nat -> 0 <= rsum prev * (nth j prev 0 * nth j qs 0) / p.
Proof.
  intros Fp Q Lp Lq. pose proof (Hq _ _ Q Fp) as Fq. pose proof (rsum_nonneg prev Fp).
  rewrite Forall_forall in Fp, Fq. pose proof (Fp _ (nth_In prev 0 Lp)). pose proof (Fq _ (nth_In qs 0 Lq)).
  apply Rmult_le_pos; [apply Rmult_le_pos; [assumption|apply Rmult_le_pos; assumption]|left; apply Rinv_0_lt_compat; exact Hp].
Qed.

Lemma run_step prev hat u qs hat' w :
  q prev qs -> length qs = N -> length prev = N -> length hat = N -> length u = N -> length hat' = N -> length w = N ->
  Forall (Rle 0) prev -> Forall (Rle 0) hat -> Forall (Rle 0) u ->
  (forall j, (j < N)%nat -> exists f,
       hat_factor lower khi (rsum prev * (nth j prev 0 * nth j qs 0) / p) = Fin f /\
       nth j hat' 0 = nth j hat 0 * f /\ nth j w 0 = nth j u 0 * nth j hat' 0) ->
  Forall (Rle 0) hat' /\ Forall (Rle 0) w /\
  forall j, (j < N)%nat -> 0 <= nth j hat' 0 <= nth j hat 0 * c /\ nth j w 0 = nth j u 0 * nth j hat' 0 /\ (nth j prev 0 = 0 -> nth j hat' 0 = 0).
Proof.
  intros Q Lq Lp Lh Lu Lh' Lw Fp Fh Fu H.
  assert (G : forall j, (j < N)%nat -> 0 <= nth j hat' 0 <= nth j hat 0 * c /\ nth j w 0 = nth j u 0 * nth j hat' 0 /\ (nth j prev 0 = 0 -> nth j hat' 0 = 0)).
  { intros j Hj. destruct (H j Hj) as (f & F1 & F2 & F3).
    destruct (hat_value lower khi _ Hlower Hkhi (lev_nonneg prev qs j Fp Q ltac:(lia) ltac:(lia))) as (f' & F1' & P1 & P2 & P3 & _).
    rewrite F1 in F1'. injection F1' as <-. rewrite Forall_forall in Fh. pose proof (Fh _ (nth_In hat 0 (ltac:(lia) : (j < length hat)%nat))) as Hh.
    fold c in P2. split; [rewrite F2; split; nra|]. split; [exact F3|]. intros Z. rewrite F2, P3; [ring|]. rewrite Z. unfold Rdiv. ring. }
  split; [|split; [|exact G]].
  - apply Forall_forall. intros x Hx. apply (In_nth _ _ 0) in Hx as (j & Hj & <-). apply (G j). lia.
  - apply Forall_forall. intros x Hx. apply (In_nth _ _ 0) in Hx as (j & Hj & <-). destruct (G j ltac:(lia)) as (G1 & -> & _).
    rewrite Forall_forall in Fu. pose proof (Fu _ (nth_In u 0 (ltac:(lia) : (j < length u)%nat))). apply Rmult_le_pos; [assumption|lra].
Qed.

Lemma run_bounds prev hat us ws : bi_run lower khi p q N prev hat us ws -> length prev = N -> length hat = N -> Forall (Rle 0) prev -> Forall (Rle 0) hat ->
  Forall (fun u => length u = N /\ Forall (Rle 0) u) us ->
  forall n w, nth_error ws n = Some w -> exists u, nth_error us n = Some u /\ length w = N /\ forall j, (j < N)%nat ->
    0 <= nth j w 0 <= nth j u 0 * (nth j hat 0 * c ^ (S n)) /\ (nth j u 0 = 0 -> nth j w 0 = 0) /\ (nth j prev 0 = 0 \/ nth j hat 0 = 0 -> nth j w 0 = 0).
Proof.
  induction 1 as [prev hat|prev hat u us qs hat' w ws Q Lq Lh' Lw Hj Br IH]; intros Lp Lh Fp Fh Fu n wn Hn; [destruct n; discriminate|].
  pose proof (Forall_inv Fu) as [Lu Fu1]. pose proof (Forall_inv_tail Fu) as Fu2.
  destruct (run_step prev hat u qs hat' w Q Lq Lp Lh Lu Lh' Lw Fp Fh Fu1 Hj) as (G1 & G2 & G3).
  assert (Pc : 0 < c) by apply exp_pos.
  destruct n as [|n].
  - injection Hn as <-. exists u. split; [reflexivity|]. split; [exact Lw|]. intros j Hlt. destruct (G3 j Hlt) as (A1 & A2 & A3).
    rewrite Forall_forall in Fu1, Fh. pose proof (Fu1 _ (nth_In u 0 (ltac:(lia) : (j < length u)%nat))) as U0.
    pose proof (Fh _ (nth_In hat 0 (ltac:(lia) : (j < length hat)%nat))) as H0.
    rewrite A2. split; [split; [apply Rmult_le_pos; lra|apply Rmult_le_compat_l; [exact U0|simpl; lra]]|]. split; [intros ->; ring|].
    intros [Z|Z]; [rewrite (A3 Z); ring|]. assert (nth j hat' 0 = 0) by (rewrite Z in A1; lra). rewrite H. ring.
  - destruct (IH Lw Lh' G2 G1 Fu2 n wn Hn) as (un & U1 & U2 & U3). exists un. split; [exact U1|]. split; [exact U2|]. intros j Hlt.
    destruct (U3 j Hlt) as (V1 & V2 & V3). destruct (G3 j Hlt) as (A1 & A2 & A3).
    assert (U0 : 0 <= nth j un 0).
    { rewrite Forall_forall in Fu2. destruct (Fu2 un (nth_error_In _ _ U1)) as [L F]. rewrite Forall_forall in F. apply F, nth_In. lia. }
    split; [|split; [exact V2|]].
    + split; [apply V1|]. eapply Rle_trans; [apply V1|]. apply Rmult_le_compat_l; [exact U0|].
      change (c ^ S (S n)) with (c * c ^ S n). rewrite <- Rmult_assoc. apply Rmult_le_compat_r; [left; apply pow_lt; exact Pc|apply A1].
    + intros [Z|Z]; apply V3; right; [exact (A3 Z)|rewrite Z in A1; lra].
Qed.

Lemma run_sticky prev hat us ws : bi_run lower khi p q N prev hat us ws -> length prev = N -> length hat = N -> Forall (Rle 0) prev -> Forall (Rle 0) hat ->
  Forall (fun u => length u = N /\ Forall (Rle 0) u) us ->
  forall n m w w' j, (n <= m)%nat -> (j < N)%nat -> nth_error ws n = Some w -> nth_error ws m = Some w' -> nth j w 0 = 0 -> nth j w' 0 = 0.
Proof.
  induction 1 as [prev hat|prev hat u us qs hat' w0 ws Q Lq Lh' Lw Hj Br IH]; intros Lp Lh Fp Fh Fu n m w w' j Hnm Hlt Hn Hm Hz; [destruct n; discriminate|].
  pose proof (Forall_inv Fu) as [Lu Fu1]. pose proof (Forall_inv_tail Fu) as Fu2.
  destruct (run_step prev hat u qs hat' w0 Q Lq Lp Lh Lu Lh' Lw Fp Fh Fu1 Hj) as (G1 & G2 & G3).
  destruct n as [|n].
  - injection Hn as ->. destruct m as [|m]; [injection Hm as ->; exact Hz|]. simpl in Hm.
    destruct (run_bounds w hat' us ws Br Lw Lh' G2 G1 Fu2 m w' Hm) as (un & _ & _ & U). destruct (U j Hlt) as (_ & _ & U'). apply U'. left. exact Hz.
  - destruct m as [|m]; [lia|]. exact (IH Lw Lh' G2 G1 Fu2 n m w w' j ltac:(lia) Hlt Hn Hm Hz).
Qed.
End Run.
