(** Two runs of the estimation side by side: a transformation of the data under
    which the solutions and the residuals transform and the weights do not change
    transforms the results and changes no rejection. *)
From Verif Require Import Base BaseLemmas Arith MestModel.

Definition rmap {A B} (f : A -> B) (r : res A) : res B := match r with Ok x => Ok (f x) | Err e => Err e end.

Lemma rmap_bind {A B D E} (f : A -> B) (g : D -> E) (m : res A) (h : A -> res D) (h' : B -> res E) :
  (forall x, h' (f x) = rmap g (h x)) -> bind (rmap f m) h' = rmap g (bind m h).
Proof. intros H. destruct m; simpl; auto. Qed.

Lemma enum_map {T U} (f : T -> U) l : enum (map f l) = map (fun p => (fst p, f (snd p))) (enum l).
Proof. unfold enum. rewrite map_length. generalize (seq 0 (length l)). induction l; intros [|n s]; simpl; congruence. Qed.

Lemma set_at_map {T U} (f : T -> U) l idx v : set_at (map f l) idx (f v) = rmap (map f) (set_at l idx v).
Proof.
  unfold set_at. rewrite map_length. destruct (forallb _ _); simpl; [|reflexivity]. f_equal.
  rewrite enum_map, !map_map. apply map_ext. intros [n x]. simpl. destruct (designated _ _ _); reflexivity.
Qed.

Lemma np_delete_map {T U} (f : T -> U) l idx : np_delete (map f l) idx = rmap (map f) (np_delete l idx).
Proof.
  unfold np_delete. rewrite map_length. destruct (forallb _ _); simpl; [|reflexivity]. f_equal.
  rewrite enum_map. induction (enum l) as [|[n x] e IH]; simpl; [reflexivity|].
  destruct (negb _); simpl; congruence.
Qed.

Lemma eliminate_map {T U} (f : T -> U) l idx : eliminate (map f l) idx = rmap (map f) (eliminate l idx).
Proof. destruct idx; [reflexivity|apply np_delete_map]. Qed.

Section Sim.
Context {k : Kern} {St : Type}.
Variables (RS : St -> St -> Prop) (fr : kR k -> kR k) (g : num (kA k) -> num (kA k)) (fb : kB k -> kB k).
Notation E := (kE k).
Notation B := (kB k).
Notation Z' := (kZ k).

Hypothesis fr_nan : fr (k_nan k) = k_nan k.
Hypothesis fr_wres : forall r w, k_wres k (map fr r) w = g (k_wres k r w).
Hypothesis g_conv : forall tol p cur, converged tol (option_map g p) (g cur) = converged tol p cur.

(** how one output and its estimates change *)
Definition good (fe : E * B -> E) (fz : Z' -> Z') : Prop :=
  (forall l w, k_wlse k (map fe l) (map fb (map snd l)) w = rmap fz (k_wlse k (map fst l) (map snd l) w)) /\
  (forall l z, k_resid k (map fe l) (map fb (map snd l)) (fz z) = map fr (k_resid k (map fst l) (map snd l) z)).

(** the results of two calls: related values and states *)
Definition same {X Y} (f : X -> Y) (p : res X * St) (p' : res Y * St) : Prop := fst p' = rmap f (fst p) /\ RS (snd p) (snd p').

Definition wgood (wf : wfun k St) : Prop := forall fe fz, good fe fz -> forall l it r iv st st', RS st st' ->
  same (fun w => w) (wf it r (map fst l) (map snd l) iv st) (wf it (map fr r) (map fe l) (map fb (map snd l)) iv st').

Section One.
Variables (fe : E * B -> E) (fz : Z' -> Z') (G : good fe fz).

Lemma solve_sim l w : solve (map fe l) (map fb (map snd l)) w = rmap fz (solve (map fst l) (map snd l) w).
Proof. unfold solve. rewrite !map_length. destruct (weights_fit _ _); simpl; [|reflexivity]. apply G. Qed.

Lemma eval_weight_sim eps wf it r l iv st st' : wgood wf -> RS st st' ->
  same (fun p => p) (eval_weight eps wf it r (map fst l) (map snd l) iv st) (eval_weight eps wf it (map fr r) (map fe l) (map fb (map snd l)) iv st').
Proof.
  intros W R. unfold eval_weight. rewrite <- fr_nan at 2. rewrite set_at_map.
  destruct (set_at r iv (k_nan k)) as [r1|x]; simpl; [|split; [reflexivity|exact R]].
  destruct (W fe fz G l it r1 iv st st' R) as [H1 H2].
  destruct (wf it r1 _ _ iv st) as [a s], (wf it (map fr r1) _ _ iv st') as [a' s']. simpl in *. subst a'.
  split; [|exact H2]. simpl. destruct a as [[w|]|x]; simpl; try reflexivity.
  destruct (set_at w iv (k_zero k)); reflexivity.
Qed.

Lemma iterate_sim o wf l : wgood wf -> forall fuel it r iv prev st st', RS st st' ->
  same (fun p => (fz (fst p), snd p)) (iterate o wf (map fst l) (map snd l) fuel it r iv prev st)
    (iterate o wf (map fe l) (map fb (map snd l)) fuel it (map fr r) iv (option_map g prev) st').
Proof.
  intros W. induction fuel as [|fuel IH]; intros it r iv prev st st' R; [split; [reflexivity|exact R]|].
  cbn [iterate]. destruct (eval_weight_sim (o_eps o) wf it r l iv st st' W R) as [H1 H2].
  destruct (eval_weight _ wf it r _ _ iv st) as [a s], (eval_weight _ wf it (map fr r) _ _ iv st') as [a' s']. simpl in *. subst a'.
  destruct a as [[w iv1]|x]; simpl; [|split; [reflexivity|exact H2]].
  rewrite solve_sim. destruct (solve (map fst l) (map snd l) w) as [z|x]; simpl; [|split; [reflexivity|exact H2]].
  rewrite (proj2 G), fr_wres, g_conv. destruct (converged _ _ _); [split; [reflexivity|exact H2]|].
  apply (IH _ _ _ (Some _)). exact H2.
Qed.

Lemma m_estimate_sim o l z0 ow iv st st' : match ow with Some wf => wgood wf | None => True end -> RS st st' ->
  same (fun p => (fz (fst p), snd p)) (m_estimate o (map fst l) (map snd l) z0 ow iv st)
    (m_estimate o (map fe l) (map fb (map snd l)) (option_map fz z0) ow iv st').
Proof.
  intros W R. unfold m_estimate. destruct ow as [wf|].
  - destruct z0 as [z0|]; simpl; [|split; [reflexivity|exact R]].
    rewrite (proj2 G). exact (iterate_sim o wf l W _ 0 _ iv None st st' R).
  - split; [|exact R]. simpl. rewrite !map_length.
    assert (S : forall w, bind (solve (map fe l) (map fb (map snd l)) w) (fun z => Ok (z, iv))
      = rmap (fun p => (fz (fst p), snd p)) (bind (solve (map fst l) (map snd l) w) (fun z => Ok (z, iv)))).
    { intros w. rewrite solve_sim. destruct (solve _ _ w); reflexivity. }
    destruct iv; simpl; [apply S|]. destruct (set_at _ _ _); simpl; [apply S|reflexivity].
Qed.

Lemma chain_sim o ws : forall l z ii st st', Forall (fun ow => match ow with Some wf => wgood wf | None => True end) ws -> RS st st' ->
  same (fun p => (option_map fz (fst p), snd p)) (chain o (map fst l) (map snd l) ws z ii st)
    (chain o (map fe l) (map fb (map snd l)) ws (option_map fz z) ii st').
Proof.
  induction ws as [|w ws IH]; intros l z ii st st' W R; [split; [reflexivity|exact R]|].
  inversion W as [|? ? W1 W2]; subst. cbn [chain]. rewrite !eliminate_map.
  destruct (eliminate l ii) as [l1|x]; simpl; [|split; [reflexivity|exact R]].
  rewrite !map_length. destruct (negb (length l1 =? 0)); simpl; [|split; [reflexivity|exact R]].
  destruct (m_estimate_sim o l1 z w [] st st' W1 R) as [H1 H2].
  destruct (m_estimate o _ _ z w [] st) as [a s], (m_estimate o _ _ (option_map fz z) w [] st') as [a' s']. simpl in *. subst a'.
  destruct a as [[z1 iv1]|x]; simpl; [|split; [reflexivity|exact H2]].
  destruct (IH l1 (Some z1) iv1 s s' W2 H2) as [H3 H4]. simpl in H3.
  destruct (chain o (map fst l1) _ ws _ iv1 s) as [a2 s2], (chain o (map fe l1) _ ws _ iv1 s') as [a2' s2']. simpl in *. subst a2'.
  split; [|exact H4]. simpl. destruct a2 as [[zz ll]|x]; reflexivity.
Qed.
End One.

(** outputs with their transformations: rows, map of the rows, map of the estimates *)
Lemma each_output_sim o ws : Forall (fun ow => match ow with Some wf => wgood wf | None => True end) ws ->
  forall (outs : list (list (E * B) * ((E * B -> E) * (Z' -> Z')))) bs inits ivs st st',
  Forall (fun p => map snd (fst p) = bs /\ good (fst (snd p)) (snd (snd p))) outs -> length inits = length outs -> RS st st' ->
  same (fun rs => map (fun p => (option_map (snd (snd (fst p))) (fst (snd p)), snd (snd p))) (combine outs rs))
    (each_output o bs ws (map (fun p => map fst (fst p)) outs) inits ivs st)
    (each_output o (map fb bs) ws (map (fun p => map (fst (snd p)) (fst p)) outs)
       (map (fun p => option_map (snd (snd (fst p))) (snd p)) (combine outs inits)) ivs st').
Proof.
  intros W. induction outs as [|[l [fe fz]] outs IH]; intros bs inits ivs st st' F L R.
  - split; [reflexivity|exact R].
  - destruct inits as [|z0 inits]; [discriminate|]. inversion F as [|? ? [F1 F2] F3]; subst. simpl in *.
    destruct ivs as [|iv ivs]; [split; [reflexivity|exact R]|].
    destruct iv as [iv|x]; [|split; [reflexivity|exact R]].
    destruct (chain_sim fe fz F2 o ws l z0 iv st st' W R) as [H1 H2].
    destruct (chain o (map fst l) _ ws z0 iv st) as [a s], (chain o (map fe l) _ ws _ iv st') as [a' s']. simpl in *. subst a'.
    destruct a as [[z ll]|x]; simpl; [|split; [reflexivity|exact H2]].
    destruct (merge_invalid_indices ll) as [m|x]; simpl; [|split; [reflexivity|exact H2]].
    destruct (IH (map snd l) inits ivs s s' F3 ltac:(lia) H2) as [H3 H4].
    destruct (each_output o (map snd l) ws _ inits ivs s) as [b s2], (each_output o (map fb (map snd l)) ws _ _ ivs s') as [b' s2']. simpl in *. subst b'.
    split; [|exact H4]. simpl. destruct b; reflexivity.
Qed.

Lemma repeat_none {X Y} (f : X -> Y -> option Z') (l : list X) (y : Y) n : length l = n -> (forall x, f x y = None) ->
  map (fun p => f (fst p) (snd p)) (combine l (repeat y n)) = repeat None n.
Proof. intros <- H. induction l; simpl; congruence. Qed.

Lemma transfer_sim o ws : Forall (fun ow => match ow with Some wf => wgood wf | None => True end) ws ->
  forall (outs : list (list (E * B) * ((E * B -> E) * (Z' -> Z')))) bs iv st st',
  Forall (fun p => map snd (fst p) = bs /\ good (fst (snd p)) (snd (snd p))) outs -> RS st st' ->
  same (fun rs => map (fun p => (option_map (snd (snd (fst p))) (fst (snd p)), snd (snd p))) (combine outs rs))
    (transfer_function o (map (fun p => map fst (fst p)) outs) bs ws None iv st)
    (transfer_function o (map (fun p => map (fst (snd p)) (fst p)) outs) (map fb bs) ws None iv st').
Proof.
  intros W outs bs iv st st' F R. unfold transfer_function. rewrite !map_length.
  destruct (iv_each (length outs) iv) as [ivs|x]; simpl; [|split; [reflexivity|exact R]].
  assert (X : forall f : (list (E * B) * ((E * B -> E) * (Z' -> Z'))) -> list E, (forall p, In p outs -> length (f p) = length (fst p)) ->
    forallb (fun e => length e =? length bs) (map f outs) = true).
  { intros f Hf. apply forallb_forall. intros e He. apply in_map_iff in He as (p & <- & Hp). rewrite (Hf p Hp).
    apply Nat.eqb_eq. rewrite Forall_forall in F. destruct (F p Hp) as [<- _]. rewrite map_length. reflexivity. }
  rewrite (X (fun p => map fst (fst p))), (X (fun p => map (fst (snd p)) (fst p))) by (intros; apply map_length).
  cbn [check bind]. rewrite repeat_length, Nat.eqb_refl. cbn [check bind].
  pose proof (each_output_sim o ws W outs bs (repeat None (length outs)) ivs st st' F ltac:(apply repeat_length) R) as S.
  rewrite (repeat_none (fun p z => option_map (snd (snd p)) z) outs None (length outs) eq_refl (fun _ => eq_refl)) in S. exact S.
Qed.
End Sim.
