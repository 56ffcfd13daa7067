(** Several outputs are estimated as if each were alone. *)
From Verif Require Import Base BaseLemmas Arith MestModel SpecMest MestProofs SpecMestAll MestAll WeightModel WeightProofs.

Section Alone.
Context {k : Kern} (K : WK k).

Lemma alone_chain (o : opts k) e b ws z l h : length e = length b ->
  fst (transfer_function o [e] b (weightings K ws) (Some [z]) (IvEach [l]) h) =
  ('(z', ll) <- fst (chain o e b (weightings K ws) z l h) ;; m <- merge_invalid_indices ll ;; Ok [(z', m)]).
Proof.
  intros L. unfold transfer_function. cbn [iv_each length map bind negb Nat.eqb check forallb andb]. rewrite L, Nat.eqb_refl. cbn [check bind andb].
  cbn [each_output]. destruct (chain o e b (weightings K ws) z l h) as [[[z' ll]|x] h']; cbn [fst bind]; [|reflexivity].
  destruct (merge_invalid_indices ll); reflexivity.
Qed.

Lemma each_alone (o : opts k) b ws : forall outs zs ls h, length zs = length outs -> length ls = length outs ->
  Forall (fun e => length e = length b) outs ->
  fst (each_output o b (weightings K ws) outs zs (map Ok ls) h) =
  (rss <- mapM (fun t => fst (transfer_function o [fst (fst t)] b (weightings K ws) (Some [snd (fst t)]) (IvEach [snd t]) (fresh K))) (combine (combine outs zs) ls) ;;
   Ok (concat rss)).
Proof.
  induction outs as [|e outs IH]; intros zs ls h Lz Ll F; [reflexivity|].
  destruct zs as [|z zs]; [discriminate|]. destruct ls as [|l ls]; [discriminate|].
  injection Lz as Lz. injection Ll as Ll. inversion F as [|? ? F1 F2]; subst.
  cbn [map each_output combine mapM fst snd]. rewrite (alone_chain o e b ws z l (fresh K) F1).
  pose proof (chain_history K o ws e b z l h (fresh K)) as H.
  destruct (chain o e b (weightings K ws) z l h) as [r s], (chain o e b (weightings K ws) z l (fresh K)) as [r' s']. cbn [fst] in *. subst r'.
  destruct r as [[z1 ll]|x]; cbn [bind]; [|reflexivity].
  destruct (merge_invalid_indices ll) as [m|x]; cbn [bind]; [|reflexivity].
  pose proof (IH zs ls s Lz Ll F2) as G.
  destruct (each_output o b (weightings K ws) outs zs (map Ok ls) s) as [rs s2]. cbn [fst] in *. subst rs.
  destruct (mapM _ _) as [rss|x]; reflexivity.
Qed.

Lemma outputs_alone (o : opts k) outs b ws init iv zs ls h : outs <> [] -> Forall (fun e => length e = length b) outs ->
  guesses_fit init (length outs) -> givens_fit iv (length outs) -> guesses init (length outs) zs -> givens iv (length outs) ls ->
  fst (transfer_function o outs b (weightings K ws) init iv h) =
  (rss <- mapM (fun t => fst (transfer_function o [fst (fst t)] b (weightings K ws) (Some [snd (fst t)]) (IvEach [snd t]) (fresh K))) (combine (combine outs zs) ls) ;;
   Ok (concat rss)).
Proof.
  intros Ho F Fg Fv G V. assert (Hp : length outs <> 0) by (destruct outs; [congruence|discriminate]).
  unfold transfer_function at 1. rewrite (proj2 (iv_each_iff _ iv ls Hp) (conj V Fv)). cbn [bind].
  assert (C : forallb (fun e => length e =? length b) outs = true).
  { apply forallb_forall. intros e He. rewrite Forall_forall in F. apply Nat.eqb_eq, F, He. }
  rewrite C. cbn [check bind].
  assert (E : match init with None => repeat None (length outs) | Some l => l end = zs).
  { destruct G as [G1 G2]. destruct init as [l|]; cbn [guesses_fit guess] in *.
    - symmetry. apply list_nth; [congruence|]. intros i z H. apply (G2 i z H).
    - rewrite <- G1. symmetry. apply repeat_nth. intros i z H. apply (G2 i z H). }
  rewrite E, (proj1 G), Nat.eqb_refl. cbn [check bind].
  apply each_alone; [apply G|apply V|exact F].
Qed.
End Alone.
