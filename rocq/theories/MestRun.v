(** Proofs about the iterations of an M-estimate. *)
From Verif Require Import Base BaseLemmas Arith MestModel SpecMest MestProofs.

Lemma sorted_unique l : forall l', StronglySorted Z.lt l -> StronglySorted Z.lt l' -> (forall i, In i l <-> In i l') -> l = l'.
Proof.
  induction l as [|x l IH]; intros l' H H' E.
  - destruct l' as [|y l']; [reflexivity|]. exfalso. apply (proj2 (E y)). left. reflexivity.
  - destruct l' as [|y l']; [exfalso; apply (proj1 (E x)); left; reflexivity|].
    inversion H as [|? ? Hs Hx]; inversion H' as [|? ? Hs' Hy]; subst. rewrite Forall_forall in Hx, Hy.
    assert (x = y).
    { destruct (proj1 (E x) (or_introl eq_refl)) as [->|G1]; [reflexivity|].
      destruct (proj2 (E y) (or_introl eq_refl)) as [->|G2]; [reflexivity|]. apply Hy in G1. apply Hx in G2. lia. }
    subst y. f_equal. apply IH; [exact Hs|exact Hs'|]. intros i. specialize (E i). simpl in E. split; intros G.
    + destruct (proj1 E (or_intror G)) as [->|G']; [|exact G']. apply Hx in G. lia.
    + destruct (proj2 E (or_intror G)) as [->|G']; [|exact G']. apply Hy in G. lia.
Qed.

Lemma set_at_intro {T} (l : list T) idx v l' : legal (length l) idx -> length l' = length l ->
  (forall n x, nth_error l n = Some x ->
    (In (Z.of_nat n) idx -> nth_error l' n = Some v) /\ (~ In (Z.of_nat n) idx -> nth_error l' n = Some x)) ->
  set_at l idx v = Ok l'.
Proof.
  intros L Hl H. destruct (set_at_legal l idx v L) as [l2 E]. rewrite E. f_equal.
  apply set_at_ok in E as (_ & Hl2 & H2); [|eapply legal_nn, L]. apply nth_error_ext. intros n.
  destruct (nth_error l n) as [x|] eqn:Hx.
  - destruct (in_dec Z.eq_dec (Z.of_nat n) idx) as [D|D].
    + rewrite (proj1 (H _ _ Hx) D), (proj1 (H2 _ _ Hx) D). reflexivity.
    + rewrite (proj2 (H _ _ Hx) D), (proj2 (H2 _ _ Hx) D). reflexivity.
  - apply nth_error_None in Hx. rewrite (proj2 (nth_error_None l2 n)), (proj2 (nth_error_None l' n)) by lia. reflexivity.
Qed.

Section Run.
Context {k : Kern} {St : Type} (o : opts k).
Implicit Types (e : list (kE k)) (b : list (kB k)) (wf : wfun k St) (st : St).

Lemma iteration_iff wf e b it z iv st w' z' iv' st' : nn iv ->
  iteration o wf e b it z iv st w' z' iv' st' <->
  eval_weight (o_eps o) wf it (k_resid k e b z) e b iv st = (Ok (w', iv'), st') /\ solve e b w' = Ok z'.
Proof.
  intros Hn. rewrite solve_ok. split.
  - intros [(r & w & L & Hl & Hr & Hc & Hw) Hs]. split; [|exact Hs]. unfold eval_weight. rewrite Hl in L.
    rewrite (set_at_intro _ _ _ r L Hl Hr), Hc. simpl. destruct w as [w|], w' as [w'|]; try contradiction.
    + destruct Hw as (Lw & Hlw & Hv & Hsrt & Hiv). rewrite (set_at_intro _ _ _ w' Lw Hlw Hv). simpl. repeat f_equal.
      apply sorted_unique; [apply nonzero_sorted|exact Hsrt|]. intros i. rewrite nonzero_In. symmetry. apply Hiv.
    + rewrite Hw. reflexivity.
  - intros [H Hs]. split; [|exact Hs]. apply eval_weight_ok in H as (r & w & L & Hl & Hr & Hc & Hw); [|exact Hn].
    exists r, w. rewrite Hl. do 4 (split; [assumption || exact L || reflexivity|]).
    destruct w as [w|], w' as [w'|]; try contradiction; [|exact Hw]. destruct Hw as (Lw & Hlw & Hv & ->).
    do 3 (split; [assumption|]). split; [apply nonzero_sorted|]. intros i. apply nonzero_In.
Qed.

Lemma settled_iff p c : settled o p c <-> converged (o_tol o) (Some p) c = true.
Proof.
  unfold settled. simpl. destruct (neqb (kA k) p (nzero (kA k))); [|tauto]. split; [intros [? _]; discriminate|discriminate].
Qed.

Lemma iteration_legal wf e b it z iv st w' z' iv' st' : e <> [] -> legal (length e) iv ->
  iteration o wf e b it z iv st w' z' iv' st' -> legal (length e) iv'.
Proof.
  intros He Hiv H. apply iteration_iff in H as [H Hs]; [|eapply legal_nn, Hiv].
  apply solve_ok in Hs as [Hf _]. apply eval_weight_ok in H as (r & w & _ & _ & _ & _ & Hw); [|eapply legal_nn, Hiv].
  destruct w as [w|], w' as [w'|]; try contradiction; [|subst; exact Hiv].
  destruct Hw as (_ & _ & _ & ->). eapply fit_legal; [destruct e; [contradiction|discriminate]|exact Hf|apply nonzero_legal].
Qed.

Lemma run_legal wf e b z0 iv0 st0 n z iv v st : e <> [] -> legal (length e) iv0 -> run o wf e b z0 iv0 st0 n z iv v st -> legal (length e) iv.
Proof. intros He H0 H. induction H as [|n z iv v st w' z' iv' st' H IH Hi _]; [exact H0|]. eapply iteration_legal; [exact He|apply IH|exact Hi]. Qed.

Lemma iteration_det wf e b it z iv st w1 z1 iv1 st1 w2 z2 iv2 st2 : nn iv ->
  iteration o wf e b it z iv st w1 z1 iv1 st1 -> iteration o wf e b it z iv st w2 z2 iv2 st2 ->
  w1 = w2 /\ z1 = z2 /\ iv1 = iv2 /\ st1 = st2.
Proof.
  intros Hn H1 H2. apply (iteration_iff _ _ _ _ _ _ _ _ _ _ _ Hn) in H1 as [H1 S1]. apply (iteration_iff _ _ _ _ _ _ _ _ _ _ _ Hn) in H2 as [H2 S2].
  rewrite H1 in H2. injection H2 as <- <- <-. rewrite S1 in S2. injection S2 as <-. auto.
Qed.

Lemma run_det wf e b z0 iv0 st0 n z1 iv1 v1 st1 : e <> [] -> legal (length e) iv0 -> run o wf e b z0 iv0 st0 n z1 iv1 v1 st1 ->
  forall z2 iv2 v2 st2, run o wf e b z0 iv0 st0 n z2 iv2 v2 st2 -> z1 = z2 /\ iv1 = iv2 /\ v1 = v2 /\ st1 = st2.
Proof.
  intros He H0 H. induction H as [|n z iv v st w' z' iv' st' H IH Hi Hc]; intros z2 iv2 v2 st2 H2.
  - inversion H2; subst; auto.
  - inversion H2 as [|n' za iva va sta wa za' iva' sta' Ha Hia Hca]; subst.
    destruct (IH _ _ _ _ Ha) as (<- & <- & <- & <-).
    pose proof (legal_nn _ _ (run_legal _ _ _ _ _ _ _ _ _ _ _ He H0 H)) as Hn.
    destruct (iteration_det _ _ _ _ _ _ _ _ _ _ _ _ _ _ _ Hn Hi Hia) as (<- & <- & <- & <-). auto.
Qed.

(** a run goes through its shorter runs *)
Lemma run_prefix wf e b z0 iv0 st0 m zm ivm vm stm : run o wf e b z0 iv0 st0 m zm ivm vm stm -> forall n, n < m ->
  exists z iv v st w' z' iv' st', run o wf e b z0 iv0 st0 n z iv v st /\ iteration o wf e b n z iv st w' z' iv' st' /\
    match v with None => True | Some p => ~ settled o p (after e b w' z') end.
Proof.
  induction 1 as [|m z iv v st w' z' iv' st' H IH Hi Hc]; intros n Hn; [lia|].
  destruct (Nat.eq_dec n m) as [->|D]; [|apply IH; lia].
  exists z, iv, v, st, w', z', iv', st'. auto.
Qed.

(** ** The loop performs a run *)
Definition finishes wf e b z0 iv0 st0 m zf ivf stf : Prop :=
  exists z iv p st w', run o wf e b z0 iv0 st0 m z iv (Some p) st /\ iteration o wf e b m z iv st w' zf ivf stf /\ settled o p (after e b w' zf).

Lemma iterate_ok wf e b z0 iv0 st0 zf ivf stf : e <> [] -> legal (length e) iv0 -> forall fuel n z iv v st,
  run o wf e b z0 iv0 st0 n z iv v st ->
  iterate o wf e b fuel n (k_resid k e b z) iv v st = (Ok (zf, ivf), stf) <->
  exists m, n <= m < n + fuel /\ finishes wf e b z0 iv0 st0 m zf ivf stf.
Proof.
  intros He H0. induction fuel as [|fuel IH]; intros n z iv v st H.
  - simpl. split; [discriminate|]. intros (m & Hm & _). lia.
  - pose proof (legal_nn _ _ (run_legal _ _ _ _ _ _ _ _ _ _ _ He H0 H)) as Hn. simpl.
    split.
    + destruct (eval_weight (o_eps o) wf n (k_resid k e b z) e b iv st) as [[[w iv1]|x] st1] eqn:E; [|discriminate].
      destruct (solve e b w) as [z1|x] eqn:Es; [|discriminate].
      assert (Hi : iteration o wf e b n z iv st w z1 iv1 st1) by (apply iteration_iff; auto).
      destruct (converged (o_tol o) v (k_wres k (k_resid k e b z1) w)) eqn:Ec.
      * intros [= <- <- <-]. destruct v as [p|]; [|discriminate]. exists n. split; [lia|].
        exists z, iv, p, st, w. split; [exact H|]. split; [exact Hi|]. apply settled_iff. exact Ec.
      * intros G. assert (H' : run o wf e b z0 iv0 st0 (S n) z1 iv1 (Some (after e b w z1)) st1).
        { econstructor; [exact H|exact Hi|]. destruct v as [p|]; [|exact I]. rewrite settled_iff. unfold after. congruence. }
        apply (IH _ _ _ _ _ H') in G as (m & Hm & Hf). exists m. split; [lia|exact Hf].
    + intros (m & Hm & Hf).
      destruct (Nat.eq_dec m n) as [->|D].
      * destruct Hf as (z1 & iv1 & p & st1 & w' & Hr & Hi & Hs). destruct (run_det _ _ _ _ _ _ _ _ _ _ _ He H0 H _ _ _ _ Hr) as (<- & <- & -> & <-).
        apply (iteration_iff _ _ _ _ _ _ _ _ _ _ _ Hn) in Hi as [E Es]. rewrite E, Es. apply settled_iff in Hs. unfold after in Hs. rewrite Hs. reflexivity.
      * assert (Hr : exists w' z' iv' st', iteration o wf e b n z iv st w' z' iv' st' /\ match v with None => True | Some p => ~ settled o p (after e b w' z') end).
        { destruct Hf as (z1 & iv1 & p & st1 & w1 & Hr & _). destruct (run_prefix _ _ _ _ _ _ _ _ _ _ _ Hr n ltac:(lia)) as (z2 & iv2 & v2 & st2 & w' & z' & iv' & st' & Hr2 & Hi & Hc).
          destruct (run_det _ _ _ _ _ _ _ _ _ _ _ He H0 H _ _ _ _ Hr2) as (<- & <- & <- & <-). exists w', z', iv', st'. auto. }
        destruct Hr as (w' & z' & iv' & st' & Hi & Hc).
        assert (H' : run o wf e b z0 iv0 st0 (S n) z' iv' (Some (after e b w' z')) st') by (econstructor; eassumption).
        apply (iteration_iff _ _ _ _ _ _ _ _ _ _ _ Hn) in Hi as [E Es]. rewrite E, Es.
        destruct (converged (o_tol o) v (k_wres k (k_resid k e b z') w')) eqn:Ec.
        { destruct v as [p|]; [|discriminate]. exfalso. apply Hc. apply settled_iff. exact Ec. }
        apply (IH _ _ _ _ _ H'). exists m. split; [lia|exact Hf].
Qed.

Lemma iterate_fails wf e b z0 iv0 st0 stf : e <> [] -> legal (length e) iv0 -> forall fuel n z iv v st,
  run o wf e b z0 iv0 st0 n z iv v st ->
  (exists zf ivf vf, run o wf e b z0 iv0 st0 (n + fuel) zf ivf vf stf) ->
  iterate o wf e b fuel n (k_resid k e b z) iv v st = (Err NonConvergence, stf).
Proof.
  intros He H0. induction fuel as [|fuel IH]; intros n z iv v st H (zf & ivf & vf & Hf).
  - rewrite Nat.add_0_r in Hf. destruct (run_det _ _ _ _ _ _ _ _ _ _ _ He H0 H _ _ _ _ Hf) as (<- & <- & <- & <-). reflexivity.
  - pose proof (legal_nn _ _ (run_legal _ _ _ _ _ _ _ _ _ _ _ He H0 H)) as Hn. simpl.
    destruct (run_prefix _ _ _ _ _ _ _ _ _ _ _ Hf n ltac:(lia)) as (z2 & iv2 & v2 & st2 & w' & z' & iv' & st' & Hr2 & Hi & Hc).
    destruct (run_det _ _ _ _ _ _ _ _ _ _ _ He H0 H _ _ _ _ Hr2) as (<- & <- & <- & <-).
    assert (H' : run o wf e b z0 iv0 st0 (S n) z' iv' (Some (after e b w' z')) st') by (econstructor; eassumption).
    apply (iteration_iff _ _ _ _ _ _ _ _ _ _ _ Hn) in Hi as [E Es]. rewrite E, Es.
    destruct (converged (o_tol o) v (k_wres k (k_resid k e b z') w')) eqn:Ec.
    { destruct v as [p|]; [|discriminate]. exfalso. apply Hc. apply settled_iff. exact Ec. }
    apply (IH _ _ _ _ _ H'). exists zf, ivf, vf. rewrite Nat.add_succ_r in Hf. exact Hf.
Qed.

Lemma iterate_exhausted wf e b z0 iv0 st0 stf : e <> [] -> legal (length e) iv0 ->
  (forall it r e b iv st, fst (wf it r e b iv st) <> Err NonConvergence) ->
  (forall e b w, k_wlse k e b w <> Err NonConvergence) ->
  forall fuel n z iv v st,
  run o wf e b z0 iv0 st0 n z iv v st ->
  iterate o wf e b fuel n (k_resid k e b z) iv v st = (Err NonConvergence, stf) ->
  exists zf ivf vf, run o wf e b z0 iv0 st0 (n + fuel) zf ivf vf stf.
Proof.
  intros He H0 Hw Hz. induction fuel as [|fuel IH]; intros n z iv v st H; simpl.
  - intros [= <-]. rewrite Nat.add_0_r. eauto.
  - pose proof (legal_nn _ _ (run_legal _ _ _ _ _ _ _ _ _ _ _ He H0 H)) as Hn.
    destruct (eval_weight (o_eps o) wf n (k_resid k e b z) e b iv st) as [[[w iv1]|x] st1] eqn:E.
    2:{ intros [= -> ->]. exfalso. revert E. unfold eval_weight. unfold set_at at 1, check. destruct (forallb _ iv); simpl; [|discriminate].
        match goal with |- context [wf n ?r e b iv st] => specialize (Hw n r e b iv st); destruct (wf n r e b iv st) as [[[w|]|x] st2] end; simpl in *.
        - unfold set_at, check. destruct (forallb _ iv); simpl; discriminate.
        - discriminate.
        - congruence. }
    destruct (solve e b w) as [z1|x] eqn:Es.
    2:{ intros [= -> ->]. exfalso. unfold solve, check in Es. destruct (weights_fit _ w); simpl in Es; [|discriminate]. apply (Hz _ _ _ Es). }
    assert (Hi : iteration o wf e b n z iv st w z1 iv1 st1) by (apply iteration_iff; auto).
    destruct (converged (o_tol o) v (k_wres k (k_resid k e b z1) w)) eqn:Ec; [discriminate|]. intros G.
    assert (H' : run o wf e b z0 iv0 st0 (S n) z1 iv1 (Some (after e b w z1)) st1).
    { econstructor; [exact H|exact Hi|]. destruct v as [p|]; [|exact I]. rewrite settled_iff. unfold after. congruence. }
    rewrite Nat.add_succ_r. apply (IH _ _ _ _ _ H' G).
Qed.
End Run.

(** ** Logged weight functions *)
Section Log.
Context {k : Kern} {St : Type} (o : opts k).
Implicit Types (e : list (kE k)) (b : list (kB k)) (wf : wfun k St) (st : St).

Lemma logged_eval wf it r e b iv st log : 
  eval_weight (o_eps o) (logged wf) it r e b iv (st, log) =
  (fst (eval_weight (o_eps o) wf it r e b iv st),
   (snd (eval_weight (o_eps o) wf it r e b iv st), match set_at r iv (k_nan k) with Ok _ => log ++ [iv] | _ => log end)).
Proof.
  unfold eval_weight. destruct (set_at r iv (k_nan k)) as [r'|x]; [|reflexivity]. simpl.
  destruct (wf it r' e b iv st) as [x st']. reflexivity.
Qed.

Definition last_of (r : res (kZ k * list Z)) : list (list Z) := match r with Ok (_, iv) => [iv] | Err _ => [] end.

Lemma growing_weaken (a a' : list Z) l : (forall i, In i a -> In i a') -> growing (a' :: l) -> growing (a :: l).
Proof. destruct l as [|c l]; simpl; [auto|]. intros H [H1 H2]. auto. Qed.

Lemma logged_iterate wf e b : e <> [] -> k_small k (o_eps o) (k_zero k) = true -> forall fuel n r iv v st log x st' log',
  legal (length e) iv ->
  iterate o (logged wf) e b fuel n r iv v (st, log) = (x, (st', log')) ->
  iterate o wf e b fuel n r iv v st = (x, st') /\
  exists l, log' = log ++ l /\ length l <= fuel /\ growing (iv :: l ++ last_of x) /\ Forall (legal (length e)) (l ++ last_of x).
Proof.
  intros He Hz. induction fuel as [|fuel IH]; intros n r iv v st log x st' log' Hiv; simpl.
  - intros [= <- <- <-]. split; [reflexivity|]. exists []. rewrite app_nil_r. simpl. auto.
  - rewrite logged_eval. pose proof (legal_nn _ _ Hiv) as Hn.
    destruct (eval_weight (o_eps o) wf n r e b iv st) as [[[w iv1]|y] st1] eqn:E; simpl.
    2:{ intros [= <- <- <-]. split; [reflexivity|]. destruct (set_at r iv (k_nan k)).
        - exists [iv]. simpl. split; [reflexivity|]. split; [lia|]. split; [auto|]. apply Forall_cons; [exact Hiv|constructor].
        - exists []. rewrite app_nil_r. simpl. split; [reflexivity|]. split; [lia|]. auto. }
    pose proof E as E'. apply eval_weight_ok in E' as (r' & w0 & L & _ & _ & _ & Hw); [|exact Hn].
    destruct (set_at_legal r iv (k_nan k) L) as [r2 Hr2]. rewrite Hr2.
    destruct (solve e b w) as [z1|y] eqn:Es.
    2:{ intros [= <- <- <-]. split; [reflexivity|]. exists [iv]. simpl. split; [reflexivity|]. split; [lia|]. split; [auto|]. apply Forall_cons; [exact Hiv|constructor]. }
    apply solve_ok in Es as [Hf _].
    assert (Hiv1 : legal (length e) iv1 /\ forall i, In i iv -> In i iv1).
    { destruct w0 as [w0|], w as [w|]; try contradiction; [|subst; auto]. destruct Hw as (Lw & Hlw & Hv & ->). split.
      - eapply fit_legal; [destruct e; [contradiction|discriminate]|exact Hf|apply nonzero_legal].
      - intros i Hi. apply nonzero_In. specialize (Hn i Hi). pose proof (Lw i Hi) as Hri.
        destruct (nth_error w0 (Z.to_nat i)) as [y|] eqn:Hy.
        + exists (Z.to_nat i), (k_zero k). split; [lia|]. split; [|exact Hz]. apply (proj1 (Hv _ _ Hy)). rewrite Z2Nat.id by lia. exact Hi.
        + apply nth_error_None in Hy. lia. }
    destruct Hiv1 as [Hl1 Hg1].
    destruct (converged (o_tol o) v _).
    + intros [= <- <- <-]. split; [reflexivity|]. exists [iv]. simpl. split; [reflexivity|]. split; [lia|]. split; [auto|]. apply Forall_cons; [exact Hiv|]. apply Forall_cons; [exact Hl1|constructor].
    + intros G. apply IH in G as [G (l & -> & Hll & Hgr & Hfa)]; [|exact Hl1]. split; [exact G|]. exists (iv :: l). rewrite <- app_assoc. simpl.
      split; [reflexivity|]. split; [lia|]. split; [|constructor; assumption]. split; [auto|]. eapply growing_weaken; [exact Hg1|exact Hgr].
Qed.
End Log.

Lemma nth_error_combine_inv {X Y} (l : list X) (l' : list Y) n x y : nth_error (combine l l') n = Some (x, y) -> nth_error l n = Some x /\ nth_error l' n = Some y.
Proof. revert l l'. induction n as [|n IH]; intros [|a l] [|b l']; simpl; try discriminate; [intros [= -> ->]; auto|apply IH]. Qed.

Lemma transfer_function_spec : forall (k : Kern) (St : Type) (o : opts k) outputs (b : list (kB k)) (ws : list (option (wfun k St))) init iv st rs st',
  (forall i l, given iv i l -> legal (length b) l) ->
  transfer_function o outputs b ws init iv st = (Ok rs, st') ->
  length rs = length outputs /\
  forall i e, nth_error outputs i = Some e ->
    length e = length b /\
    exists z iv' z0 iv0 st1 st2 left,
      nth_error rs i = Some (z, iv') /\ guess init i z0 /\ given iv i iv0 /\
      steps o e b (seq 0 (length b)) z0 iv0 ws st1 z left st2 /\
      complement (length b) left iv'.
Proof.
  intros k St o outputs b ws init iv st rs st' Hl. unfold transfer_function.
  destruct (bind (iv_each _ iv) _) as [[ivs inits]|x] eqn:E; [|discriminate].
  apply bind_ok in E as (ivs' & Ei & E). apply bind_ok in E as ([] & Ea & E). apply bind_ok in E as ([] & Eb & [= -> <-]).
  apply check_ok in Ea, Eb. apply Nat.eqb_eq in Eb. rewrite forallb_forall in Ea.
  apply bind_ok in Ei as (ivs' & Ei & E). apply bind_ok in E as ([] & _ & E). apply bind_ok in E as ([] & Ec & [= ->]).
  apply check_ok, Nat.eqb_eq in Ec. intros H.
  assert (Hg : forall i x, nth_error ivs i = Some (Ok x) -> given iv i x).
  { assert (R : forall (l : list Z) i x, nth_error (repeat (Ok l) (length outputs)) i = Some (Ok x) -> x = l).
    { intros l i x G. apply nth_error_In, repeat_spec in G. congruence. }
    intros i x G. destruct iv as [|m|m|ll]; simpl in Ei.
    - injection Ei as <-. apply R in G. exact G.
    - destruct m; injection Ei as <-; apply R in G; exact G.
    - destruct m as [|m0 m]; injection Ei as <-; [apply R in G; split; [reflexivity|exact G]|]. apply nth_error_In in G. destruct G as [G|G]; [discriminate|].
      apply in_map_iff in G as (? & ? & _). discriminate.
    - destruct ll as [|l0 ll]; injection Ei as <-; [apply R in G; exact G|].
      change (nth_error (map Ok (l0 :: ll)) i = Some (Ok x)) in G. rewrite nth_error_map in G.
      change (nth_error (l0 :: ll) i = Some x). destruct (nth_error (l0 :: ll) i); simpl in G; congruence. }
  apply each_output_spec in H; [| exact Eb | exact Ec | |].
  2:{ apply Forall_forall. intros e He. apply Nat.eqb_eq, Ea, He. }
  2:{ intros l G. apply In_nth_error in G as [i G]. apply (Hl i), Hg, G. }
  pose proof (Forall2_len _ _ _ H) as Hlen. rewrite !combine_length in Hlen. split; [lia|].
  intros i e He. split; [apply Nat.eqb_eq, Ea; eapply nth_error_In, He|].
  assert (Hi : i < length outputs) by (apply nth_error_Some; congruence).
  destruct (nth_error rs i) as [[z iv']|] eqn:Er; [|apply nth_error_None in Er; lia].
  destruct (Forall2_nth_error_r _ _ _ _ _ H Er) as (p & Hp & (e1 & z0 & iv0 & st1 & st2 & left & -> & Hs & Hc)).
  apply nth_error_combine_inv in Hp as [Hp Hv]. apply nth_error_combine_inv in Hp as [Hp Hz].
  assert (e1 = e) by congruence. subst e1.
  exists z, iv', z0, iv0, st1, st2, left. split; [reflexivity|]. split; [|split; [apply Hg, Hv|auto]].
  destruct init as [l|]; simpl in *; [exact Hz|]. apply nth_error_In, repeat_spec in Hz. exact Hz.
Qed.

(** ** The outcomes of an estimate *)
Lemma m_estimate_ok (k : Kern) (St : Type) (o : opts k) (wf : wfun k St) e b z0 iv0 st0 zf ivf stf :
  e <> [] -> legal (length e) iv0 ->
  m_estimate o e b (Some z0) (Some wf) iv0 st0 = (Ok (zf, ivf), stf) <->
  exists n z iv p st w', (Z.of_nat n < o_maxit o)%Z /\
    run o wf e b z0 iv0 st0 n z iv (Some p) st /\
    iteration o wf e b n z iv st w' zf ivf stf /\ settled o p (after e b w' zf).
Proof.
  intros He H0. unfold m_estimate. rewrite (iterate_ok o wf e b z0 iv0 st0 zf ivf stf He H0 _ _ _ _ _ _ (run_start _ _ _ _ _ _ _)). split.
  - intros (n & Hn & z & iv & p & st & w' & H). exists n, z, iv, p, st, w'. split; [lia|exact H].
  - intros (n & z & iv & p & st & w' & Hn & H). exists n. split; [lia|]. exists z, iv, p, st, w'. exact H.
Qed.

Lemma m_estimate_nonconv (k : Kern) (St : Type) (o : opts k) (wf : wfun k St) e b z0 iv0 st0 stf :
  e <> [] -> legal (length e) iv0 ->
  (forall it r e b iv st, fst (wf it r e b iv st) <> Err NonConvergence) ->
  (forall e b w, k_wlse k e b w <> Err NonConvergence) ->
  m_estimate o e b (Some z0) (Some wf) iv0 st0 = (Err NonConvergence, stf) <->
  exists z iv v, run o wf e b z0 iv0 st0 (Z.to_nat (o_maxit o)) z iv v stf.
Proof.
  intros He H0 Hw Hz. split.
  - intros H. exact (iterate_exhausted o wf e b z0 iv0 st0 stf He H0 Hw Hz _ 0 _ _ _ _ (run_start _ _ _ _ _ _ _) H).
  - intros H. exact (iterate_fails o wf e b z0 iv0 st0 stf He H0 _ 0 _ _ _ _ (run_start _ _ _ _ _ _ _) H).
Qed.

Lemma m_estimate_none (k : Kern) (St : Type) (o : opts k) e b z0 iv (st : St) z iv' st' : nn iv ->
  m_estimate (St := St) o e b z0 None iv st = (Ok (z, iv'), st') <->
  iv' = iv /\ st' = st /\
  ((iv = [] /\ k_wlse k e b None = Ok z) \/
   (iv <> [] /\ legal (length e) iv /\ exists w, length w = length e /\
      (forall n, n < length e -> (In (Z.of_nat n) iv -> nth_error w n = Some (k_zero k)) /\ (~ In (Z.of_nat n) iv -> nth_error w n = Some (k_one k))) /\
      k_wlse k e b (Some w) = Ok z)).
Proof.
  intros Hn. unfold m_estimate.
  assert (N : forall n, n < length e -> nth_error (repeat (k_one k) (length e)) n = Some (k_one k)).
  { intros n H. rewrite (nth_error_nth' _ (k_one k)) by (rewrite repeat_length; exact H). f_equal. apply nth_repeat. }
  split.
  - intros [= H <-]. apply bind_ok in H as (w & H1 & H). apply bind_ok in H as (z1 & H2 & [= -> <-]).
    split; [reflexivity|]. split; [reflexivity|]. destruct iv as [|j iv].
    + injection H1 as <-. left. apply solve_ok in H2. tauto.
    + right. split; [discriminate|]. apply bind_ok in H1 as (w1 & H1 & [= <-]). apply set_at_ok in H1 as (L & Hl & Hw); [|exact Hn].
      rewrite repeat_length in L, Hl. split; [exact L|]. exists w1. split; [exact Hl|]. split; [|apply solve_ok in H2; tauto].
      intros n Hlt. exact (Hw n _ (N n Hlt)).
  - intros (-> & -> & [[-> H]|(Hne & L & w & Hl & Hw & H)]).
    + simpl. unfold solve. simpl. rewrite H. reflexivity.
    + destruct iv as [|j iv]; [contradiction|].
      rewrite (set_at_intro (repeat (k_one k) (length e)) (j :: iv) (k_zero k) w).
      * simpl. unfold solve, weights_fit. rewrite Hl, Nat.eqb_refl. simpl. rewrite H. reflexivity.
      * rewrite repeat_length. exact L.
      * rewrite repeat_length. exact Hl.
      * intros n x Hx. assert (n < length e) by (rewrite <- (repeat_length (k_one k) (length e)); apply nth_error_Some; congruence).
        rewrite (N n) in Hx by assumption. injection Hx as <-. apply Hw. assumption.
Qed.

(** an estimate whose weighted residuals are all zero never settles *)
Lemma exact_never (k : Kern) (St : Type) (o : opts k) (wf : wfun k St) e b z0 iv0 st0 zf ivf stf :
  e <> [] -> legal (length e) iv0 ->
  (forall w z, k_wlse k e b w = Ok z -> neqb (kA k) (after e b w z) (nzero (kA k)) = true) ->
  m_estimate o e b (Some z0) (Some wf) iv0 st0 <> (Ok (zf, ivf), stf).
Proof.
  intros He H0 Hz H. apply (m_estimate_ok k St o wf e b z0 iv0 st0 zf ivf stf He H0) in H as (n & z & iv & p & st & w' & _ & Hr & _ & [Hp _]).
  inversion Hr as [|n' z1 iv1 v1 st1 w1 z2 iv2 st2 _ Hi _]; subst. destruct Hi as [_ [_ Hi]]. rewrite (Hz _ _ Hi) in Hp. discriminate.
Qed.

(** an integer array of invalid indices is refused *)
Lemma array_refused (k : Kern) (St : Type) (o : opts k) outputs b (ws : list (option (wfun k St))) init l st :
  l <> [] -> exists x, transfer_function o outputs b ws init (IvArray l) st = (Err x, st).
Proof.
  intros Hl. unfold transfer_function. destruct (bind (iv_each _ _) _) as [[ivs inits]|x] eqn:E; [|eauto].
  apply bind_ok in E as (ivs' & Ei & E). apply bind_ok in E as ([] & Ea & E). apply bind_ok in E as ([] & Eb & [= -> <-]).
  apply check_ok, Nat.eqb_eq in Eb.
  apply bind_ok in Ei as (ivs' & Ei & E). apply bind_ok in E as ([] & _ & E). apply bind_ok in E as ([] & Ec & [= ->]).
  apply check_ok, Nat.eqb_eq in Ec. destruct l as [|j l]; [contradiction|]. injection Ei as <-. simpl in Ec.
  destruct outputs as [|e outputs]; [discriminate|]. simpl in *.
  destruct init as [init|]; simpl in *; [|eauto]. destruct init; [discriminate|eauto].
Qed.

Lemma m_estimate_grows (k : Kern) (St : Type) (o : opts k) (wf : wfun k St) e b z0 iv st r st' log :
  e <> [] -> k_small k (o_eps o) (k_zero k) = true -> legal (length e) iv ->
  m_estimate o e b (Some z0) (Some (logged wf)) iv (st, []) = (r, (st', log)) ->
  m_estimate o e b (Some z0) (Some wf) iv st = (r, st') /\
  growing (iv :: log ++ last_of r) /\ Forall (legal (length e)) (log ++ last_of r) /\
  (Z.of_nat (length log) <= Z.max 0 (o_maxit o))%Z.
Proof.
  intros He Hz Hiv H. unfold m_estimate in *. apply logged_iterate in H as [H (l & -> & Hl & Hg & Hf)]; try assumption.
  split; [exact H|]. split; [exact Hg|]. split; [exact Hf|]. simpl. lia.
Qed.
