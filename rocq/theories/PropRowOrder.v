(** C102: the order of the rows of the data. *)
From Coq Require Import Reals.
From Coquelicot Require Import Complex.
From mathcomp Require Import all_ssreflect all_algebra.
From Verif Require Import CField.
From Verif Require Import Base Arith MestModel WeightModel BiModel FullModel SpecFull RowOrderFull FullSamples.
Import GRing.Theory.
Local Open Scope ring_scope.

(** Put the rows (the windows of the signals) of all outputs and inputs in another
    order, given by a list [p] of positions, and rename the rows to leave out
    accordingly. With the weights of the library and the same first guesses,
    [transfer_function] raises the same exceptions, returns the same estimates and
    rejects the same rows. The state left in the weight objects by earlier
    estimations plays no role. *)
Theorem C102_row_order : forall (q : nat) (o : opts (fullK q)) (p : list nat) (b b' : list 'rV[C]_q) ws outputs outputs' init iv iv' st st',
  Permutation p (List.seq 0 (List.length b)) -> reordered p b b' -> List.Forall2 (reordered p) outputs outputs' ->
  List.Forall (fun e => List.length e = List.length b) outputs -> same_rows_given p iv iv' ->
  List.Forall (fun w => match w with Some w => of_library w = true | None => True end) ws ->
  match fst (transfer_function (k := fullK q) o outputs b (weightings (fullW q) ws) init iv st),
        fst (transfer_function (k := fullK q) o outputs' b' (weightings (fullW q) ws) init iv' st') with
  | Ok rs, Ok rs' => List.Forall2 (fun r r' => fst r' = fst r /\ same_rows p (snd r) (snd r')) rs rs'
  | Err x, Err x' => x' = x
  | _, _ => False
  end.
Proof. intros q o p b b' ws outputs outputs' init iv iv' st st' P RB RO L RI W. exact (full_order o init st st' P RB RO L RI W). Qed.
Print Assumptions C102_row_order.

(** the run of C96 that weights down two rows, with the rows in another order; and
    rows to leave out in both orders *)
Example C102_example :
  let run e := fst (transfer_function (k := fullK 1) fullO [e] fourB
    (weightings (fullW 1) [None; Some (Huber (k := fullK 1) (Rdiv 3 2))]) None IvNone (fresh (fullW 1))) in
  let p := [2; 0; 1; 3]%nat in
  reordered p fourE [RtoC 2; RtoC 1; RtoC (-1); RtoC (-2)] /\
  run fourE = Ok [(Some 0, [])] /\ run [RtoC 2; RtoC 1; RtoC (-1); RtoC (-2)] = Ok [(Some 0, [])] /\
  same_rows_given p (IvFlat [0; 3]%Z) (IvFlat [1; 3]%Z).
Proof.
  intros run p.
  assert (RE : reordered p fourE [RtoC 2; RtoC 1; RtoC (-1); RtoC (-2)]).
  { split; [reflexivity|]. intros [|[|[|[|j]]]] i H; try (injection H as <-; reflexivity). destruct j; discriminate. }
  split; [exact RE|]. split; [exact four_run|]. split.
  - pose proof (C102_row_order 1 fullO p fourB fourB [None; Some (Huber (k := fullK 1) (Rdiv 3 2))] [fourE]
      [[RtoC 2; RtoC 1; RtoC (-1); RtoC (-2)]] None IvNone IvNone (fresh (fullW 1)) (fresh (fullW 1))) as H.
    rewrite four_run in H. unfold run. destruct (fst _) as [rs|x].
    + assert (G : List.Forall2 (fun r r' => fst r' = fst r /\ same_rows p (snd r) (snd r')) [(Some (0 : 'cV[C]_1), [])] rs).
      { apply H.
        - cbn. apply NoDup_Permutation; [repeat constructor; simpl; intuition discriminate|repeat constructor; simpl; intuition discriminate|].
          intros x. simpl. tauto.
        - split; [reflexivity|]. intros [|[|[|[|j]]]] i E; try (injection E as <-; reflexivity). destruct j; discriminate.
        - repeat constructor; apply RE.
        - repeat constructor.
        - exact I.
        - repeat constructor. }
      inversion G as [|r r' l l' [G1 [_ G2]] G3]; subst. inversion G3; subst. destruct r' as [z iv]. cbn [fst snd] in *. subst z.
      destruct iv as [|z iv]; [reflexivity|]. destruct (proj1 (G2 z) (or_introl erefl)) as (j & i & _ & _ & []).
    + exfalso. apply H.
      * cbn. apply NoDup_Permutation; [repeat constructor; simpl; intuition discriminate|repeat constructor; simpl; intuition discriminate|].
        intros y. simpl. tauto.
      * split; [reflexivity|]. intros [|[|[|[|j]]]] i E; try (injection E as <-; reflexivity). destruct j; discriminate.
      * repeat constructor; apply RE.
      * repeat constructor.
      * exact I.
      * repeat constructor.
  - split.
    + intros z [<- | [<- | []]]; [exists O|exists 3%nat]; split; try reflexivity; simpl; auto.
    + intros z. split.
      * intros [<- | [<- | []]]; [exists 1%nat, O|exists 3%nat, 3%nat]; repeat split; simpl; auto.
      * intros (j & i & -> & Hj & Hi). simpl in Hi. destruct Hi as [Hi | [Hi | []]].
        -- destruct i; [|discriminate]. destruct j as [|[|[|[|j]]]]; try discriminate; [left; reflexivity|destruct j; discriminate].
        -- assert (i = 3)%nat by Lia.lia. subst i. destruct j as [|[|[|[|j]]]]; try discriminate; [right; left; reflexivity|destruct j; discriminate].
Qed.
