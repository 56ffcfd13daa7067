(** C112: the real formulation of a transfer problem with the estimation. *)
From Coq Require Import Reals.
From Coquelicot Require Import Complex.
From mathcomp Require Import all_ssreflect all_algebra.
From Verif Require Import CField.
From Verif Require Import Base Arith MestModel WeightModel BiModel FullModel SpecFull ExactProofs FullSamples RealProbModel SpecRealProb RealProbProofs RealProbSamples.
Import GRing.Theory.
Local Open Scope ring_scope.

(** With plain least squares, [transfer_function_real_prob] raises the same exceptions
    as [transfer_function] and returns the same estimates, if both parts of the
    rejected values are left out; the rejected indices are those of both parts. *)
Theorem C112_least_squares : forall St (inputs : list (list C)) n (o : opts (fullK (List.length inputs))) (o' : opts (fullK (2 * List.length inputs)))
    (outputs : list (list C)) m iv iv' (st : St),
  inputs <> [] -> List.Forall (fun line => List.length line = n) inputs -> List.Forall (fun line => List.length line = n) outputs -> leaves_out_both iv iv' ->
  match fst (transfer_function o outputs (rows_of (List.length inputs) n inputs) (repeat None (S m)) None iv st),
        fst (real_prob o' outputs (repeat None (S m)) None iv' st) with
  | Ok rs, Ok rs' => List.Forall2 (fun r r' => fst r = Some (fst r') /\ snd r' = both_parts (snd r)) rs rs'
  | Err x, Err x' => x' = x
  | _, _ => False
  end.
Proof. exact real_prob_plain. Qed.
Print Assumptions C112_least_squares.

(** For all weights: the inputs must be lines of one length, at least one, and the
    outputs have this length or a single value, which counts for all rows. *)
Theorem C112_shapes : forall St (inputs : list (list C)) (o : opts (fullK (2 * List.length inputs))) (outputs : list (list C)) ws init iv (st : St),
  inputs = [] \/ (exists l l', In l inputs /\ In l' inputs /\ List.length l <> List.length l') \/
  (exists l e, In l inputs /\ In e outputs /\ List.length e <> List.length l /\ List.length e <> 1%nat) ->
  fst (real_prob o outputs ws init iv st) = Err ValueError.
Proof. exact real_prob_shapes. Qed.
Print Assumptions C112_shapes.

Theorem C112_single_values : forall St (inputs : list (list C)) (o : opts (fullK (2 * List.length inputs))) (outputs outputs' : list (list C)) ws init iv (st : St) n,
  inputs <> [] -> List.Forall (fun l => List.length l = n) inputs ->
  List.Forall2 (fun e e' => List.length e = n /\ e' = e \/ exists c, e = repeat c n /\ e' = [c]) outputs outputs' ->
  real_prob o outputs' ws init iv st = real_prob o outputs ws init iv st.
Proof. exact real_prob_single. Qed.
Print Assumptions C112_single_values.

(** four rows with the transfer function i; the first and the third one left out *)
Example C112_example :
  let outs := [[Ci; Ci; Ci; Ci]] in
  (forall o (st : heap (fullW 1)), fst (real_prob (inputs := ones) o outs [None] None IvNone st) = Ok [(Ci%:M, [])]) /\
  (forall o (st : heap (fullW 1)), fst (real_prob (inputs := ones) o [[Ci]] [None] None IvNone st) = Ok [(Ci%:M, [])]) /\
  leaves_out_both (IvFlat [0; 2]%Z) (IvFlat [0; 1; 4; 5]%Z) /\ List.Forall (fun line => List.length line = 4%nat) outs.
Proof. exact real_example. Qed.
