(** Rows of one input for the example of PropBi.v. *)
From Coq Require Import Reals Lra.
From Coquelicot Require Import Complex.
From Verif Require Import Base BaseLemmas Arith MestModel SpecMest WeightModel RobustModel SpecRobust RobustSamples BiModel SpecBi BiProofs.
Open Scope R_scope.

Definition num_of (w : ext) : R := match w with Fin x => x | _ => 0 end.
(** with one input equal to [b j] on row [j], the quadratic form is [b j ^ 2 / sum w b ^ 2] *)
Definition quad1 (b : list R) (w : option (list ext)) : res (list ext) :=
  let w := match w with Some w => map num_of w | None => repeat 1 (length b) end in
  let a := rsum (map2 (fun w x => w * (x * x)) w b) in
  if Req_EM_T a 0 then Err LinAlgError else Ok (map (fun x => Fin (x * x / a)) b).
Definition b1 : list R := [1; 2; 1; 1].

Lemma num_fin w : map num_of (map Fin w) = w.
Proof. rewrite map_map. apply map_id. Qed.
Lemma quad1_one b : quad1 b None = quad1 b (Some (repeat (Fin 1) (length b))).
Proof. unfold quad1. rewrite map_repeat'. reflexivity. Qed.
Lemma quad1_fin b w q : nonneg (length b) w -> quad1 b (Some (map Fin w)) = Ok q -> exists qs, q = map Fin qs /\ nonneg (length b) qs.
Proof.
  intros [L F]. unfold quad1. rewrite num_fin. destruct (Req_EM_T _ 0) as [|Na]; [discriminate|]. intros [= <-].
  set (a := rsum _) in *. exists (map (fun x => x * x / a) b). split; [rewrite map_map; reflexivity|]. split; [apply map_length|].
  assert (P : 0 <= a).
  { unfold a. apply rsum_nonneg. unfold map2. apply Forall_forall. intros y Hy. apply in_map_iff in Hy as ([u v] & <- & Hy).
    apply in_combine_l in Hy. rewrite Forall_forall in F. specialize (F u Hy). simpl. nra. }
  apply Forall_forall. intros y Hy. apply in_map_iff in Hy as (x & <- & _). apply Rmult_le_pos; [nra|]. left. apply Rinv_0_lt_compat. lra.
Qed.

Lemma sample_usable : usable (length b1) (sample, [1%Z]).
Proof.
  unfold usable. cbn [fst snd]. split; [reflexivity|]. split; [intros j [<-|[]]; simpl; lia|]. split.
  - intros j Hj. unfold sample. destruct j as [|[|[|[|j]]]]; simpl in *; (split; intros H); try discriminate; try lia; auto;
    try (destruct H as [H|[]]; lia).
  - exists (100000 / 44845). split; [lra|exact sample_scale].
Qed.
