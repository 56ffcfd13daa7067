(** Proofs about the weight objects: estimates do not depend on what the objects
    were used for before. *)
From Coq Require Import QArith Qcanon.
From Verif Require Import Base BaseLemmas Arith QcLemmas MestModel SpecMest MestProofs WeightModel.
Open Scope nat_scope.

Section History.
Context {k : Kern} (K : WK k).
Notation heap := (heap K).

(** equal states for the objects in [P] *)
Definition same (P : nat -> Prop) (h1 h2 : heap) : Prop := forall i, P i -> h1 i = h2 i.

Lemma same_weaken (P Q : nat -> Prop) h1 h2 : (forall i, P i -> Q i) -> same Q h1 h2 -> same P h1 h2.
Proof. intros H G i Hi. apply G, H, Hi. Qed.

Lemma same_hset (P : nat -> Prop) h1 h2 j s : same P h1 h2 -> same (fun i => P i \/ i = j) (hset K h1 j s) (hset K h2 j s).
Proof.
  intros H i Hi. unfold hset. destruct (Nat.eqb_spec i j) as [->|D]; [reflexivity|]. apply H. destruct Hi; [assumption|contradiction].
Qed.

(** later iterations only use the states of the objects of the weight *)
Lemma call_later w : forall it r e b iv h1 h2 (P : nat -> Prop), it <> 0 -> (forall i, In i (ids w) -> P i) -> same P h1 h2 ->
  fst (call K w it r e b iv h1) = fst (call K w it r e b iv h2) /\ same P (snd (call K w it r e b iv h1)) (snd (call K w it r e b iv h2)).
Proof.
  induction w as [f|al|id xi|id inner IH lo up]; intros it r e b iv h1 h2 P Hit Hids Hs; simpl; try (split; [reflexivity|exact Hs]).
  - destruct it as [|it]; [contradiction|]. rewrite <- (Hs id (Hids id (or_introl eq_refl))).
    destruct (h1 id) as [[s|p]|]; simpl; auto.
  - destruct it as [|it]; [contradiction|]. rewrite <- (Hs id (Hids id (or_introl eq_refl))).
    destruct (h1 id) as [[s|p]|]; simpl; auto. match goal with |- context [if ?c then _ else _] => destruct c end; [|auto].
    destruct (IH (S it) r e b iv h1 h2 P Hit (fun i Hi => Hids i (or_intror Hi)) Hs) as [G1 G2].
    destruct (call K inner (S it) r e b iv h1) as [x1 k1], (call K inner (S it) r e b iv h2) as [x2 k2]. simpl in G1, G2. subst x2.
    destruct (bind x1 _) as [[[biw tr] hat]|x]; simpl; [|auto]. split; [reflexivity|].
    eapply same_weaken; [|apply same_hset, G2]. intros i Hi; left; exact Hi.
Qed.

(** the first iteration does not use the states at all, and sets those of all the
    objects of the weight, unless it fails *)
Lemma call_first w : forall r e b iv h1 h2 (P : nat -> Prop), same P h1 h2 ->
  fst (call K w 0 r e b iv h1) = fst (call K w 0 r e b iv h2) /\
  same P (snd (call K w 0 r e b iv h1)) (snd (call K w 0 r e b iv h2)) /\
  (forall x, fst (call K w 0 r e b iv h1) = Ok x ->
   same (fun i => P i \/ In i (ids w)) (snd (call K w 0 r e b iv h1)) (snd (call K w 0 r e b iv h2))).
Proof.
  induction w as [f|al|id xi|id inner IH lo up]; intros r e b iv h1 h2 P Hs; simpl.
  - split; [reflexivity|]. split; [exact Hs|]. intros _ _. eapply same_weaken; [|exact Hs]. intros i [Hi|[]]. exact Hi.
  - split; [reflexivity|]. split; [exact Hs|]. intros _ _. eapply same_weaken; [|exact Hs]. intros i [Hi|[]]. exact Hi.
  - split; [reflexivity|]. assert (G := same_hset P h1 h2 id (SThomson K (w_mad k K r)) Hs). split.
    + eapply same_weaken; [|exact G]. intros i Hi; cbv beta; auto.
    + intros _ _. eapply same_weaken; [|exact G]. intros i [Hi|[<-|[]]]; cbv beta; auto.
  - set (p0 := {| bi_it := (-1)%Z; bi_weight := None; bi_trace := w_rows k K (length b); bi_hat := None |}).
    assert (G := same_hset P h1 h2 id (SBi K p0) Hs).
    assert (E : forall h, hset K h id (SBi K p0) id = Some (SBi K p0)) by (intros h; unfold hset; rewrite Nat.eqb_refl; reflexivity).
    rewrite !E. simpl.
    destruct (IH r e b iv _ _ _ G) as (G1 & G2 & G3).
    destruct (call K inner 0 r e b iv (hset K h1 id (SBi K p0))) as [x1 k1], (call K inner 0 r e b iv (hset K h2 id (SBi K p0))) as [x2 k2]. simpl in G1, G2, G3. subst x2.
    destruct x1 as [x1|x]; simpl.
    + specialize (G3 _ eq_refl).
      destruct (bind (of_option TypeError x1) _) as [[[biw tr] hat]|x]; simpl.
      * split; [reflexivity|]. assert (F := same_hset _ k1 k2 id (SBi K {| bi_it := 0; bi_weight := Some biw; bi_trace := tr; bi_hat := Some hat |}) G3). split.
        -- eapply same_weaken; [|exact F]. intros i Hi; cbv beta; auto.
        -- intros _ _. eapply same_weaken; [|exact F]. intros i [Hi|[<-|Hi]]; cbv beta; auto.
      * split; [reflexivity|]. split; [|discriminate]. eapply same_weaken; [|exact G2]. intros i Hi; cbv beta; auto.
    + split; [reflexivity|]. split; [|discriminate]. eapply same_weaken; [|exact G2]. intros i Hi; cbv beta; auto.
Qed.

Lemma eval_later (o : opts k) w it r e b iv h1 h2 : it <> 0 -> same (fun i => In i (ids w)) h1 h2 ->
  fst (eval_weight (o_eps o) (call K w) it r e b iv h1) = fst (eval_weight (o_eps o) (call K w) it r e b iv h2) /\
  same (fun i => In i (ids w)) (snd (eval_weight (o_eps o) (call K w) it r e b iv h1)) (snd (eval_weight (o_eps o) (call K w) it r e b iv h2)).
Proof.
  intros Hit H. unfold eval_weight. destruct (set_at r iv (k_nan k)) as [r'|x]; [|auto].
  destruct (call_later w it r' e b iv h1 h2 _ Hit (fun i Hi => Hi) H) as [G1 G2].
  destruct (call K w it r' e b iv h1) as [x1 k1], (call K w it r' e b iv h2) as [x2 k2]. simpl in *. subst. auto.
Qed.

Lemma eval_first (o : opts k) w r e b iv h1 h2 :
  fst (eval_weight (o_eps o) (call K w) 0 r e b iv h1) = fst (eval_weight (o_eps o) (call K w) 0 r e b iv h2) /\
  (forall x, fst (eval_weight (o_eps o) (call K w) 0 r e b iv h1) = Ok x ->
    same (fun i => In i (ids w)) (snd (eval_weight (o_eps o) (call K w) 0 r e b iv h1)) (snd (eval_weight (o_eps o) (call K w) 0 r e b iv h2))).
Proof.
  unfold eval_weight. destruct (set_at r iv (k_nan k)) as [r'|x]; [|split; [reflexivity|discriminate]].
  destruct (call_first w r' e b iv h1 h2 (fun _ => False) (fun i F => False_ind _ F)) as (G1 & _ & G2).
  destruct (call K w 0 r' e b iv h1) as [x1 k1], (call K w 0 r' e b iv h2) as [x2 k2]. simpl in *. subst. split; [reflexivity|].
  intros x Hx. destruct x2 as [y|y]; [|discriminate]. eapply same_weaken; [|apply (G2 _ eq_refl)]. intros i Hi; cbv beta; auto.
Qed.

Lemma iterate_later (o : opts k) w e b fuel : forall it r iv v h1 h2, it <> 0 -> same (fun i => In i (ids w)) h1 h2 ->
  fst (iterate o (call K w) e b fuel it r iv v h1) = fst (iterate o (call K w) e b fuel it r iv v h2).
Proof.
  induction fuel as [|fuel IH]; intros it r iv v h1 h2 Hit H; [reflexivity|]. simpl.
  destruct (eval_later o w it r e b iv h1 h2 Hit H) as [G1 G2].
  destruct (eval_weight (o_eps o) (call K w) it r e b iv h1) as [x1 k1], (eval_weight (o_eps o) (call K w) it r e b iv h2) as [x2 k2].
  simpl in *. subst x2. destruct x1 as [[w' iv']|x]; [|reflexivity]. destruct (solve e b w') as [z|x]; [|reflexivity].
  destruct (converged _ _ _); [reflexivity|]. apply IH; [lia|exact G2].
Qed.

Lemma m_estimate_history (o : opts k) e b z0 (w : option weight) iv h1 h2 :
  fst (m_estimate o e b z0 (option_map (call K) w) iv h1) = fst (m_estimate o e b z0 (option_map (call K) w) iv h2).
Proof.
  destruct w as [w|]; simpl; [|reflexivity]. destruct z0 as [z0|]; [|reflexivity].
  destruct (Z.to_nat (o_maxit o)) as [|fuel]; [reflexivity|]. simpl.
  destruct (eval_first o w (k_resid k e b z0) e b iv h1 h2) as [G1 G2].
  destruct (eval_weight (o_eps o) (call K w) 0 _ e b iv h1) as [x1 k1], (eval_weight (o_eps o) (call K w) 0 _ e b iv h2) as [x2 k2].
  simpl in *. subst x2. destruct x1 as [[w' iv']|x]; [|reflexivity]. specialize (G2 _ eq_refl).
  destruct (solve e b w') as [z|x]; [|reflexivity]. apply iterate_later; [lia|exact G2].
Qed.

Lemma chain_history (o : opts k) ws : forall e b z ii h1 h2,
  fst (chain o e b (weightings K ws) z ii h1) = fst (chain o e b (weightings K ws) z ii h2).
Proof.
  induction ws as [|w ws IH]; intros e b z ii h1 h2; [reflexivity|]. simpl.
  match goal with |- context [bind (eliminate e ii) ?f] => destruct (bind (eliminate e ii) f) as [[e2 b2]|x] end; [|reflexivity].
  pose proof (m_estimate_history o e2 b2 z w [] h1 h2) as G.
  destruct (m_estimate o e2 b2 z (option_map (call K) w) [] h1) as [x1 k1], (m_estimate o e2 b2 z (option_map (call K) w) [] h2) as [x2 k2].
  simpl in G. subst x2. destruct x1 as [[z' ii']|x]; [|reflexivity].
  specialize (IH e2 b2 (Some z') ii' k1 k2). 
  destruct (chain o e2 b2 (weightings K ws) (Some z') ii' k1) as [y1 j1], (chain o e2 b2 (weightings K ws) (Some z') ii' k2) as [y2 j2].
  simpl in *. subst. reflexivity.
Qed.

Lemma each_output_history (o : opts k) b ws outs : forall inits ivs h1 h2,
  fst (each_output o b (weightings K ws) outs inits ivs h1) = fst (each_output o b (weightings K ws) outs inits ivs h2).
Proof.
  induction outs as [|e outs IH]; intros inits ivs h1 h2; [reflexivity|].
  destruct inits as [|z0 inits]; [reflexivity|]. destruct ivs as [|[iv|x] ivs]; [reflexivity| |reflexivity]. simpl.
  pose proof (chain_history o ws e b z0 iv h1 h2) as G.
  destruct (chain o e b (weightings K ws) z0 iv h1) as [x1 k1], (chain o e b (weightings K ws) z0 iv h2) as [x2 k2]. simpl in G. subst x2.
  destruct (bind x1 _) as [r|x]; [|reflexivity]. specialize (IH inits ivs k1 k2).
  destruct (each_output o b (weightings K ws) outs inits ivs k1) as [y1 j1], (each_output o b (weightings K ws) outs inits ivs k2) as [y2 j2].
  simpl in *. subst. reflexivity.
Qed.

Lemma transfer_function_history (o : opts k) outs b ws init iv h1 h2 :
  fst (transfer_function o outs b (weightings K ws) init iv h1) = fst (transfer_function o outs b (weightings K ws) init iv h2).
Proof.
  unfold transfer_function. match goal with |- context [bind (iv_each ?a ?c) ?f] => destruct (bind (iv_each a c) f) as [[ivs inits]|x] end; [|reflexivity].
  apply each_output_history.
Qed.
End History.

(** ** Sharing an object between estimations *)
Section Sharing.
Context {k : Kern} (K : WK k).

Lemma call_other w : forall it r e b iv h j, ~ In j (ids w) -> snd (call K w it r e b iv h) j = h j.
Proof.
  induction w as [f|al|id xi|id inner IH lo up]; intros it r e b iv h j Hj; simpl; try reflexivity.
  - simpl in Hj. destruct it as [|it]; simpl.
    + unfold hset. destruct (Nat.eqb_spec j id); [subst; tauto|reflexivity].
    + destruct (h id) as [[s|p]|]; reflexivity.
  - simpl in Hj.
    assert (D : j <> id) by (intros ->; tauto).
    assert (Hs : forall h s, hset K h id s j = h j) by (intros; unfold hset; destruct (Nat.eqb_spec j id); [contradiction|reflexivity]).
    set (h' := match it with 0 => _ | S _ => h end).
    assert (Hh : h' j = h j) by (unfold h'; destruct it; [apply Hs|reflexivity]).
    destruct (h' id) as [[s|p]|]; simpl; try exact Hh.
    match goal with |- context [if ?c then _ else _] => destruct c end; [|exact Hh].
    pose proof (IH it r e b iv h' j (fun G => Hj (or_intror G))) as G.
    destruct (call K inner it r e b iv h') as [x1 k1]. simpl in G.
    destruct (bind x1 _) as [[[biw tr] hat]|x]; simpl; [rewrite Hs|]; congruence.
Qed.

(** the scale of the last first call, whoever made it *)
Lemma thomson_shared id xi rA rB rA' eA eB bA bB ivA ivB ivA' h :
  let w := Thomson (k := k) id xi in
  let hA := snd (call K w 0 rA eA bA ivA h) in
  let hB := snd (call K w 0 rB eB bB ivB hA) in
  let x := match xi with Some x => x | None => w_xi k K (length rA') end in
  forall n,
  fst (call K w (S n) rA' eA bA ivA' hA) = Ok (Some (w_thomson k K x (w_mad k K rA) rA')) /\
  fst (call K w (S n) rA' eA bA ivA' hB) = Ok (Some (w_thomson k K x (w_mad k K rB) rA')).
Proof.
  simpl. intros _. unfold hset. rewrite Nat.eqb_refl. split; reflexivity.
Qed.

Lemma bi_shared id inner lo up n m r1 r2 e1 e2 b1 b2 iv1 iv2 x h h' : 
  call K (BoundedInfluence id inner lo up) n r1 e1 b1 iv1 h = (Ok x, h') -> m <> 0 -> m <> S n ->
  call K (BoundedInfluence id inner lo up) m r2 e2 b2 iv2 h' = (Err AssertionError, h').
Proof.
  intros H Hm Hn.
  assert (E : exists p, h' id = Some (SBi K p) /\ bi_it p = Z.of_nat n).
  { revert H. simpl. set (h1 := match n with 0 => _ | S _ => h end).
    destruct (h1 id) as [[s|p]|]; try discriminate.
    match goal with |- context [if ?c then _ else _] => destruct c end; [|discriminate].
    destruct (call K inner n r1 e1 b1 iv1 h1) as [x1 k1].
    destruct (bind x1 _) as [[[biw tr] hat]|y]; [|discriminate]. intros [= _ <-].
    unfold hset. rewrite Nat.eqb_refl. eexists. split; reflexivity. }
  destruct E as (p & Hp & Hit). destruct m as [|m]; [contradiction|].
  assert (F : (Z.of_nat (S m) =? 1 + bi_it p)%Z = false) by (apply Z.eqb_neq; rewrite Hit; lia).
  cbn [call]. rewrite Hp, F. reflexivity.
Qed.
End Sharing.

(** ** The schedule of bi_weights *)
Section Schedule.
Context {k : Kern}.

Lemma bi_weights_len alpha lower upper n id : length (bi_weights (k := k) alpha lower upper n id) = Z.to_nat n + 2.
Proof. unfold bi_weights. rewrite app_length. simpl. rewrite rev_length, map_length, seq_length. lia. Qed.

Lemma bi_weights_first alpha lower upper n id : nth_error (bi_weights (k := k) alpha lower upper n id) 0 = Some None.
Proof. reflexivity. Qed.

Lemma bi_weights_middle alpha lower upper n id j : j < Z.to_nat n ->
  exists i w, w = Huber alpha /\ nth_error (bi_weights (k := k) alpha lower upper n id) (1 + j) =
  Some (Some (BoundedInfluence i w (nmul (kA k) lower (pow2 (kA k) (- Z.of_nat (Z.to_nat n - 1 - j)))) (nmul (kA k) upper (pow2 (kA k) (Z.of_nat (Z.to_nat n - 1 - j)))))).
Proof.
  intros H. unfold bi_weights. simpl.
  rewrite nth_error_app1 by (rewrite rev_length, map_length, seq_length; lia).
  eexists _, _. split; [reflexivity|].
  set (f := fun i => Some (BoundedInfluence (id + i) (Huber alpha) (nmul (kA k) lower (pow2 (kA k) (- Z.of_nat i))) (nmul (kA k) upper (pow2 (kA k) (Z.of_nat i))))).
  rewrite <- map_rev, nth_error_map.
  assert (E : nth_error (rev (seq 0 (Z.to_nat n))) j = Some (Z.to_nat n - 1 - j)).
  { rewrite (nth_error_nth' _ 0) by (rewrite rev_length, seq_length; lia). f_equal.
    rewrite rev_nth by (rewrite seq_length; lia). rewrite seq_length, seq_nth by lia. lia. }
  rewrite E. reflexivity.
Qed.

Lemma bi_weights_last alpha lower upper n id :
  exists i w i', w = Thomson i' None /\ i <> i' /\ nth_error (bi_weights (k := k) alpha lower upper n id) (Z.to_nat n + 1) = Some (Some (BoundedInfluence i w lower upper)).
Proof.
  unfold bi_weights. eexists _, _, _. split; [reflexivity|].
  assert (Hl : forall f : nat -> option (weight (k := k)), length (None :: rev (map f (seq 0 (Z.to_nat n)))) = Z.to_nat n + 1) by (intros f; simpl; rewrite rev_length, map_length, seq_length; lia).
  rewrite nth_error_app2 by (rewrite Hl; lia). rewrite Hl, Nat.sub_diag. split; [|reflexivity]. lia.
Qed.

(** the objects of a new schedule are all different *)
Lemma bi_weights_ids alpha lower upper n id :
  NoDup (concat (map (fun w => match w with Some w => ids w | None => [] end) (bi_weights (k := k) alpha lower upper n id))).
Proof.
  unfold bi_weights. rewrite map_app, concat_app. simpl. rewrite <- map_rev, map_map. simpl.
  assert (E : forall l, concat (map (fun i => [id + i]) l) = map (fun i => id + i) l) by (induction l as [|x l IH]; simpl; [reflexivity|f_equal; exact IH]).
  rewrite E, <- app_nil_r.
  assert (H : forall l, (forall i, In i l -> i < id + Z.to_nat n) -> NoDup l -> NoDup (l ++ [id + Z.to_nat n; id + Z.to_nat n + 1])).
  { induction l as [|x l IH]; intros Hl Hn; simpl.
    - constructor; [intros [G|[]]; lia|]. constructor; [intros []|constructor].
    - inversion Hn; subst. constructor.
      + rewrite in_app_iff. intros [G|[G|[G|[]]]]; [contradiction| |]; specialize (Hl x (or_introl eq_refl)); lia.
      + apply IH; [intros i Hi; apply Hl; right; exact Hi|assumption]. }
  rewrite app_nil_r. apply H.
  - intros i Hi. apply in_map_iff in Hi as (x & <- & Hx). apply in_rev, in_seq in Hx. lia.
  - apply FinFun.Injective_map_NoDup; [intros x y G; lia|]. apply NoDup_rev, seq_NoDup.
Qed.
End Schedule.

Lemma bi_weights_spec (k : Kern) (alpha lower upper : num (kA k)) (n : Z) (id : nat) :
  let l := bi_weights alpha lower upper n id in
  let N := Z.to_nat n in
  length l = N + 2 /\
  nth_error l 0 = Some None /\
  (forall j, j < N -> exists i, nth_error l (1 + j) =
     Some (Some (BoundedInfluence i (Huber alpha) (nmul (kA k) lower (pow2 (kA k) (- Z.of_nat (N - 1 - j)))) (nmul (kA k) upper (pow2 (kA k) (Z.of_nat (N - 1 - j))))))) /\
  (exists i i', nth_error l (N + 1) = Some (Some (BoundedInfluence i (Thomson i' None) lower upper))) /\
  NoDup (concat (map (fun w => match w with Some w => ids w | None => [] end) l)).
Proof.
  cbv zeta. split; [apply bi_weights_len|]. split; [reflexivity|]. split; [|split; [|apply bi_weights_ids]].
  - intros j Hj. destruct (bi_weights_middle alpha lower upper n id j Hj) as (i & w & -> & H). eauto.
  - destruct (bi_weights_last alpha lower upper n id) as (i & w & i' & -> & _ & H). eauto.
Qed.

(** in exact arithmetic the factors are the powers of two *)
Lemma pow2_exact (n : nat) : pow2 QA (Z.of_nat n) = ZtoQc (2 ^ Z.of_nat n) /\ Qcmult (pow2 QA (- Z.of_nat n)) (ZtoQc (2 ^ Z.of_nat n)) = 1%Qc.
Proof.
  unfold pow2. rewrite (proj2 (Z.leb_le 0 (Z.of_nat n))) by lia. split; [reflexivity|].
  assert (P : (0 < 2 ^ Z.of_nat n)%Z) by (apply Z.pow_pos_nonneg; lia).
  destruct (Z.leb_spec 0 (- Z.of_nat n)) as [H|H].
  - assert (E : Z.of_nat n = 0%Z) by lia. rewrite E. simpl. apply Qc_is_canon. reflexivity.
  - rewrite Z.opp_involutive. simpl. rewrite Qcmult_comm. apply Qcmult_div_r. intros E. apply (ZtoQc_inj _ 0) in E. lia.
Qed.

Lemma mest_stages (k : Kern) (K : WK k) (alpha : num (kA k)) (id : nat) : exists f g,
  weightings K (mest_weights alpha id) = [None; Some f; Some g] /\
  (forall it r e b iv h, f it r e b iv h = (Ok (Some (w_huber k K alpha (w_mad k K r) r)), h)) /\
  (forall r e b iv h, exists h', g 0 r e b iv h = (Ok (Some (w_thomson k K (w_xi k K (length r)) (w_mad k K r) r)), h') /\
     forall it r' e' b' iv', g (S it) r' e' b' iv' h' = (Ok (Some (w_thomson k K (w_xi k K (length r')) (w_mad k K r) r')), h')).
Proof.
  eexists. eexists. split; [reflexivity|]. split; [reflexivity|]. intros r e b iv h. eexists. split; [reflexivity|]. intros it r' e' b' iv'.
  cbn [call]. unfold hset. rewrite Nat.eqb_refl. reflexivity.
Qed.
