(** C41, second part: exactly when the transfer function succeeds. *)
From Coq Require Import QArith Qcanon.
From Verif Require Import Base BaseLemmas Arith MestModel SpecMest SpecMestAll MestAll WeightModel OutputsProofs MestSamples.
Open Scope nat_scope.

(** It succeeds exactly when there is one guess and one list of indices per
    output (or none at all) and every output has its sequence of steps, which
    determine the results; otherwise it raises. *)
Theorem C41_outcome : forall (k : Kern) (St : Type) (o : opts k) outputs (b : list (kB k)) (ws : list (option (wfun k St))) init iv st rs st',
  outputs <> [] -> (forall i l, given iv i l -> legal (length b) l) ->
  transfer_function o outputs b ws init iv st = (Ok rs, st') <->
  guesses_fit init (length outputs) /\ givens_fit iv (length outputs) /\
  exists zs ls, guesses init (length outputs) zs /\ givens iv (length outputs) ls /\
    all_steps o b ws outputs zs ls st rs st'.
Proof. intros k St. exact transfer_function_iff. Qed.
Print Assumptions C41_outcome.

(** two outputs with their own guesses and invalid rows *)
Example C41_outcome_example :
  let e1 := [1; 3; 3; 400; 5; 7; 37; 8]%Z in let e2 := [4; 4; 5; 8; 9; 9; 10; 1]%Z in
  let b := [1; 2; 3; 4; 5; 6; 7; 8]%Z in
  let ws : list (option (wfun k0 (list nat))) := [Some (cut 200); Some (cut 10)] in
  let go init iv := transfer_function o0 [e1; e2] b ws init iv [] in
  go (Some [Some 2; Some 1]%Z) (IvEach [[1]; []]%Z) = (Ok [(Some 1%Z, [1; 3; 6]%Z); (Some 1%Z, [])], [0; 1; 0; 1; 0; 1; 0; 1]) /\
  (exists zs ls, all_steps o0 b ws [e1; e2] zs ls [] [(Some 1%Z, [1; 3; 6]%Z); (Some 1%Z, [])] [0; 1; 0; 1; 0; 1; 0; 1]) /\
  fst (go (Some [Some 2]%Z) (IvEach [[1]; []]%Z)) = Err AssertionError /\
  fst (go (Some [Some 2; Some 1]%Z) (IvEach [[1]]%Z)) = Err AssertionError /\
  fst (go None IvNone) = Err TypeError.
Proof.
  intros e1 e2 b ws go.
  assert (H : go (Some [Some 2; Some 1]%Z) (IvEach [[1]; []]%Z) = (Ok [(Some 1%Z, [1; 3; 6]%Z); (Some 1%Z, [])], [0; 1; 0; 1; 0; 1; 0; 1])) by (vm_compute; reflexivity).
  split; [exact H|]. split; [|vm_compute; auto].
  apply C41_outcome in H as (_ & _ & zs & ls & _ & _ & H).
  - exists zs, ls. exact H.
  - discriminate.
  - intros i l G j Hj. destruct i as [|[|i]]; simpl in G; [| |destruct i; discriminate]; injection G as <-; [destruct Hj as [<-|[]]; simpl; lia|destruct Hj].
Qed.

(** ** C104: every output is estimated as if it were alone *)
(** Several outputs at once give, output by output, what each of them gives alone,
    with its own guess, its own rows to leave out and new weight objects; the first
    output that fails alone decides the exception. *)
Theorem C104_outputs_alone : forall (k : Kern) (K : WK k) (o : opts k) outputs b ws init iv zs ls (h : heap K),
  outputs <> [] -> Forall (fun e => length e = length b) outputs ->
  guesses_fit init (length outputs) -> givens_fit iv (length outputs) -> guesses init (length outputs) zs -> givens iv (length outputs) ls ->
  let alone e z l := fst (transfer_function o [e] b (weightings K ws) (Some [z]) (IvEach [l]) (fresh K)) in
  fst (transfer_function o outputs b (weightings K ws) init iv h) =
  (rss <- mapM (fun t => alone (fst (fst t)) (snd (fst t)) (snd t)) (combine (combine outputs zs) ls) ;; Ok (concat rss)).
Proof. intros k K o outputs b ws init iv zs ls h H1 H2 H3 H4 H5 H6. exact (outputs_alone K o outputs b ws init iv zs ls h H1 H2 H3 H4 H5 H6). Qed.
Print Assumptions C104_outputs_alone.

(** two outputs that share the objects of their weights *)
Example C104_example :
  let e1 := [1; 3; 3; 400; 5; 7; 37; 8]%Z in let e2 := [4; 4; 5; 8; 9; 9; 10; 1]%Z in
  let b := [1; 2; 3; 4; 5; 6; 7; 8]%Z in
  let ws := [None; Some (BoundedInfluence (k := k0) 7 (Thomson 8 None) (nofZ QA 1) (nofZ QA 2))] in
  let go es := fst (transfer_function o0 es b (weightings K0 ws) None IvNone (fresh K0)) in
  exists r1 r2, go [e1] = Ok [r1] /\ go [e2] = Ok [r2] /\ go [e1; e2] = Ok [r1; r2].
Proof. vm_compute. eauto 10. Qed.
