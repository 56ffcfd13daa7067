(** C96 and C97: the complete robust estimation with complex data and the formulas
    of the library. *)
From Coq Require Import Reals.
From Coquelicot Require Import Complex.
From mathcomp Require Import all_ssreflect all_algebra.
From Verif Require Import CField.
From Verif Require Import Base Arith MestModel WeightModel BiModel SimProofs FullModel SpecFull FullProofs ExactProofs FullSamples.
Import GRing.Theory.
Local Open Scope ring_scope.

(** Replace every output [e] by [c * e + b . z0] with a number [c <> 0] and some
    [z0] of its own, and the inputs by invertible combinations [b . M] of them. With
    the weights of the library, [transfer_function] raises the same exceptions,
    rejects the same rows and returns the estimates [M^-1 . (c * z + z0)]. *)
Theorem C96_equivariant : forall (q : nat) (c : C) (M : 'M[C]_q), c <> RtoC 0 -> M \in unitmx ->
  forall (o : opts (fullK q)) (outputs : list (list C)) (b : list 'rV[C]_q) ws iv (zs : list 'cV[C]_q),
  List.length zs = List.length outputs ->
  List.Forall (fun e => List.length e = List.length b) outputs ->
  List.Forall (fun w => match w with Some w => of_library w = true | None => True end) ws ->
  fst (transfer_function (k := fullK q) o (List.map (fun p => changed_output c b (snd p) (fst p)) (combine outputs zs)) (List.map (changed_row M) b)
         (weightings (fullW q) ws) None iv (fresh (fullW q)))
  = match fst (transfer_function (k := fullK q) o outputs b (weightings (fullW q) ws) None iv (fresh (fullW q))) with
    | Ok rs => Ok (List.map (fun p => (option_map (changed_estimate c M (fst p)) (fst (snd p)), snd (snd p))) (combine zs rs))
    | Err x => Err x
    end.
Proof. intros q c M Hc UM o outputs b ws iv zs L F W. exact (full_change Hc UM o iv L F W). Qed.
Print Assumptions C96_equivariant.

(** a run that weights down two rows and converges, and its changed data: the
    factor [2i], twice the input, the estimate 3 added *)
Example C96_example :
  let run e b := fst (transfer_function (k := fullK 1) fullO [e] b
    (weightings (fullW 1) [None; Some (Huber (k := fullK 1) (Rdiv 3 2))]) None IvNone (fresh (fullW 1))) in
  let c := Cmult (RtoC 2) Ci in let M : 'M[C]_1 := (RtoC 2)%:M in
  c <> RtoC 0 /\ M \in unitmx /\
  run fourE fourB = Ok [(Some 0, [])] /\
  run (changed_output c fourB three fourE) (List.map (changed_row M) fourB) = Ok [(Some (invmx M *m (c *: 0 + three)), [])].
Proof.
  intros run c M.
  assert (Hc : c <> RtoC 0) by (intros H; apply (f_equal Im) in H; simpl in H; Lra.lra).
  assert (UM : M \in unitmx).
  { rewrite unitmxE det_scalar expr1 unitfE. apply/eqP. intros H. apply (f_equal Re) in H. simpl in H. Lra.lra. }
  split; [exact Hc|]. split; [exact UM|]. split; [exact four_run|].
  assert (E := C96_equivariant 1 c M Hc UM fullO [fourE] fourB [None; Some (Huber (k := fullK 1) (Rdiv 3 2))] IvNone [three] erefl).
  rewrite four_run in E. apply E; repeat constructor.
Qed.

(** Data without any noise: least squares returns the exact transfer function … *)
Theorem C97_least_squares : forall (q : nat) (o : opts (fullK q)) (b : list 'rV[C]_q) (z : 'cV[C]_q) st,
  full_rank b -> b <> [] ->
  transfer_function (k := fullK q) o [noise_free b z] b (weightings (fullW q) [None]) None IvNone st = (Ok [(Some z, [])], st).
Proof. exact noise_free_ls. Qed.
Print Assumptions C97_least_squares.

(** … but any robust step of the library that follows raises ValueError … *)
Theorem C97_robust_fails : forall (q : nat) (o : opts (fullK q)) w ws (b : list 'rV[C]_q) others (z : 'cV[C]_q) st,
  of_library w = true -> full_rank b -> b <> [] ->
  List.Forall (fun e => List.length e = List.length b) others -> (0 < o_maxit o)%Z ->
  fst (transfer_function (k := fullK q) o (noise_free b z :: others) b (weightings (fullW q) (None :: Some w :: ws)) None IvNone st) = Err ValueError.
Proof. exact noise_free_fails. Qed.
Print Assumptions C97_robust_fails.

(** … and so does a robust step from a guess that more than half of the rows fit
    exactly. *)
Theorem C97_majority_fails : forall (q : nat) (o : opts (fullK q)) w ws (b : list 'rV[C]_q) e others (z : 'cV[C]_q) zs st,
  of_library w = true -> full_rank b ->
  List.Forall (fun e => List.length e = List.length b) (e :: others) -> List.length zs = List.length others ->
  mostly_exact b e z -> (0 < o_maxit o)%Z ->
  fst (transfer_function (k := fullK q) o (e :: others) b (weightings (fullW q) (Some w :: ws)) (Some (Some z :: zs)) IvNone st) = Err ValueError.
Proof. exact exact_guess. Qed.
Print Assumptions C97_majority_fails.

(** four rows with the transfer function 3, and a guess 3 that three rows of four
    fit; the weights are those of [mest_weights] and a bounded influence *)
Example C97_example :
  full_rank fourB /\ fourB <> [] /\ mostly_exact fourB mostE three /\
  fst (transfer_function (k := fullK 1) fullO [noise_free fourB three] fourB (weightings (fullW 1) (mest_weights (k := fullK 1) (Rdiv 3 2) 0)) None IvNone (fresh (fullW 1))) = Err ValueError /\
  fst (transfer_function (k := fullK 1) fullO [mostE] fourB
    (weightings (fullW 1) [Some (BoundedInfluence (k := fullK 1) 0 (Huber (k := fullK 1) (Rdiv 3 2)) (Rdiv 1 2) R1)]) (Some [Some three]) IvNone (fresh (fullW 1))) = Err ValueError.
Proof.
  split; [exact four_rank|]. split; [discriminate|]. split; [exact most_exact|]. split.
  - apply C97_robust_fails; [reflexivity|exact four_rank|discriminate|constructor|reflexivity].
  - apply (C97_majority_fails 1 fullO _ [] fourB mostE [] three []); [reflexivity|exact four_rank|repeat constructor|reflexivity|exact most_exact|reflexivity].
Qed.
