(** The determination filter on complex windows (C114). *)
From mathcomp Require Import all_ssreflect all_algebra.
From Verif Require Import WlseModel WlseProofs ErrModel CodModel CodProofs CodFilterModel SpecCodFilter CodFilterProofs.
From Verif Require Import Base BaseLemmas PrefilterModel SpecPrefilter PrefilterProofs.
Set Implicit Arguments.
Unset Strict Implicit.
Unset Printing Implicit Defensive.
Import Order.POrderTheory GRing.Theory Num.Theory.
Local Open Scope ring_scope.

(** The rejected windows are those of the blocks in which the output is not zero and
    the explained part [d] is below the minimum or above the maximum. *)
Theorem C114_rejected : forall (C : numClosedFieldType) (q : nat) (cod_min cod_max : C) (size : nat) (e : list C) (b : list 'rV[C]_q) (iv : list Z),
  (0 < size)%coq_nat -> List.length b = List.length e -> determination_filter cod_min cod_max size e b = Ok iv ->
  StronglySorted BinInt.Z.lt iv /\
  forall j, List.In j iv <-> exists i lo hi d, j = BinInt.Z.of_nat i /\ in_block size (List.length e) i lo hi /\
    not_silent (rows lo hi e) /\ explains (rows lo hi e) (rows lo hi b) d /\ (d < cod_min \/ cod_max < d).
Proof. exact: filter_rejected. Qed.
Print Assumptions C114_rejected.

(** There is one explained part, between 0 and 1. *)
Theorem C114_explained : forall (C : numClosedFieldType) (q : nat) (e : list C) (b : list 'rV[C]_q) d,
  List.length b = List.length e -> not_silent e -> explains e b d -> 0 <= d <= 1 /\ forall d', explains e b d' -> d' = d.
Proof.
move=> C q e b d L N X; split; first by rewrite (explains_range L N X) andbT; case: X.
by move=> d' X'; exact: (explains_unique N X' X).
Qed.
Print Assumptions C114_explained.

(** It works exactly when the inputs of every block are independent; otherwise it is
    LinAlgError. *)
Theorem C114_succeeds : forall (C : numClosedFieldType) (q : nat) (cod_min cod_max : C) (size : nat) (e : list C) (b : list 'rV[C]_q),
  (0 < size)%coq_nat -> List.length b = List.length e -> e <> [] ->
  (exists iv, determination_filter cod_min cod_max size e b = Ok iv) <->
  forall i lo hi, in_block size (List.length e) i lo hi -> independent (rows lo hi b).
Proof. exact: filter_ok. Qed.
Print Assumptions C114_succeeds.
Theorem C114_fails : forall (C : numClosedFieldType) (q : nat) (cod_min cod_max : C) (size : nat) (e : list C) (b : list 'rV[C]_q) x,
  (0 < size)%coq_nat -> List.length b = List.length e -> e <> [] ->
  determination_filter cod_min cod_max size e b = Err x -> x = LinAlgError.
Proof. exact: filter_fails. Qed.
Print Assumptions C114_fails.

(** Neither the unit of the output nor the choice of the inputs changes the result. *)
Theorem C114_units : forall (C : numClosedFieldType) (q : nat) (c : C) (M : 'M[C]_q) (cod_min cod_max : C) (size : nat) (e : list C) (b : list 'rV[C]_q),
  c != 0 -> M \in unitmx ->
  determination_filter cod_min cod_max size (List.map (fun x => c * x) e) (List.map (fun r => r *m M) b) =
  determination_filter cod_min cod_max size e b.
Proof. exact: filter_units. Qed.
Print Assumptions C114_units.

(** With a minimum that is not positive, and the maximum of 1, all windows are kept, *)
Theorem C114_keeps_all : forall (C : numClosedFieldType) (q : nat) (cod_min cod_max : C) (size : nat) (e : list C) (b : list 'rV[C]_q) (iv : list Z),
  (0 < size)%coq_nat -> List.length b = List.length e -> cod_min <= 0 -> 1 <= cod_max ->
  determination_filter cod_min cod_max size e b = Ok iv -> iv = [].
Proof. exact: keeps_all. Qed.
Print Assumptions C114_keeps_all.
(** and so they are when the output is predicted exactly, in each block by a transfer
    function of its own. *)
Theorem C114_exact : forall (C : numClosedFieldType) (q : nat) (cod_min cod_max : C) (size : nat) (e : list C) (b : list 'rV[C]_q) (iv : list Z),
  (0 < size)%coq_nat -> List.length b = List.length e -> cod_min <= 1 -> 1 <= cod_max ->
  (forall i lo hi, in_block size (List.length e) i lo hi ->
     exists z : 'cV[C]_q, forall x r, List.In (x, r) (combine (rows lo hi e) (rows lo hi b)) -> x = (r *m z) 0 0) ->
  determination_filter cod_min cod_max size e b = Ok iv -> iv = [].
Proof. exact: keeps_exact. Qed.
Print Assumptions C114_exact.

(** One constant input; the output is constant in the first block of two windows,
    alternating in the second one and zero in the last three windows. *)
Section Example114.
Variable C : numClosedFieldType.
Let e : list C := [3%:R; 3%:R; 1; -1; 0; 0; 0].
Let b : list 'rV[C]_1 := List.repeat 1 7.

Lemma ones_independent n : (0 < n)%coq_nat -> independent (List.repeat (1 : 'rV[C]_1) n).
Proof.
case: n => [|n] H v Hv; first by case: (PeanoNat.Nat.lt_irrefl _ H).
by have := Hv 1 (or_introl erefl); rewrite mul1mx => E; apply/colP => i; rewrite ord1 E mxE.
Qed.

Lemma parallelogram (x y x' y' : C) : (x + y) * (x' + y') + (x - y) * (x' - y') = 2%:R * (x * x') + 2%:R * (y * y').
Proof.
rewrite [(x + y) * _]mulrDl [(x - y) * _]mulrBl [x * (x' + _)]mulrDr [y * (x' + _)]mulrDr ![_ * (x' - _)]mulrBr opprB !mulr_natl !mulr2n.
by rewrite addrACA [x * x' + _ + _]addrACA subrr addr0 [y * x' + _]addrC [y * y' + _ + _]addrACA subrr addr0.
Qed.

Lemma alternating : explains [1; -1 : C] (List.repeat (1 : 'rV[C]_1) 2) 0.
Proof.
have M z : misfit [1; -1 : C] (List.repeat (1 : 'rV[C]_1) 2) z = 2%:R + 2%:R * `|z 0 0| ^+ 2.
  rewrite /misfit /= !big_cons big_nil /= !mul1mx addr0 addrC -opprD normrN !normCK rmorphB rmorphD rmorph1 /=.
  by rewrite parallelogram !mulr1.
split; first exact: lexx.
exists 2%:R; split; first by move=> z; rewrite M ler_addl mulr_ge0 ?ler0n ?exprn_ge0.
split; first by exists 0; rewrite M mxE normr0 expr0n mulr0 addr0.
by rewrite /energy !big_cons big_nil normrN normr1 expr1n addr0 expr0n mul0r subrr.
Qed.

Lemma constant : explains [3%:R; 3%:R : C] (List.repeat (1 : 'rV[C]_1) 2) 1.
Proof.
split; first exact: ler01.
exists 0; split; first by move=> z; exact: misfit_ge0.
split; last by rewrite expr1n mul1r subr0.
exists (3%:R)%:M; symmetry; apply: misfit_exact => // x r /=.
by case=> [[<- <-]|[[<- <-]|]] //; rewrite mul1mx mxE.
Qed.

Lemma block_value (x : list C) (r : list 'rV[C]_1) d : List.length r = List.length x -> independent r -> not_silent x -> explains x r d ->
  block_cod x r = Ok (Finite d).
Proof.
move=> L I N X; have [v V] := block_ok L I; have [_ [V1 _]] := cod_block L V; have [d' [E X']] := V1 N.
by rewrite V E (explains_unique N X' X).
Qed.

Lemma zero_value : block_cod [0; 0; 0 : C] (List.repeat (1 : 'rV[C]_1) 3) = Ok NotNumber.
Proof.
have L : List.length (List.repeat (1 : 'rV[C]_1) 3) = List.length [0; 0; 0 : C] by [].
have [v V] := block_ok L (ones_independent (PeanoNat.Nat.lt_0_succ 2)); have [_ [_ V2]] := cod_block L V.
by rewrite V V2 // => -[x [H N]]; apply: N; move: H => /= [<-|[<-|[<-|]]].
Qed.

Example C114_example : determination_filter (2%:R^-1) 1 2 e b = Ok [2; 3]%Z /\ List.length b = List.length e /\
  not_silent (rows 2 4 e) /\ explains (rows 2 4 e) (rows 2 4 b) 0 /\ ~ not_silent (rows 4 7 e).
Proof.
have two : (0 < 2)%coq_nat by exact: PeanoNat.Nat.lt_0_succ.
have N1 : not_silent [3%:R; 3%:R : C] by exists 3%:R; split; [left|apply/eqP; rewrite pnatr_eq0].
have N2 : not_silent [1; -1 : C] by exists 1; split; [left|apply/eqP; exact: oner_neq0].
have B1 : block_cod [3%:R; 3%:R : C] (List.repeat (1 : 'rV[C]_1) 2) = Ok (Finite 1) by exact: (block_value _ (ones_independent two) N1 constant).
have B2 : block_cod [1; -1 : C] (List.repeat (1 : 'rV[C]_1) 2) = Ok (Finite 0) by exact: (block_value _ (ones_independent two) N2 alternating).
split; last first.
  split; first by []. split; first exact: N2. split; first exact: alternating.
  by move=> -[x [H N]]; apply: N; move: H => /= [<-|[<-|[<-|]]].
rewrite /determination_filter /cod_filter /value /=.
rewrite B1 /= B2 /= zero_value /= /where_ /=.
have P : 0 < (2%:R : C)^-1 by rewrite invr_gt0 ltr0n.
have H1 : (1 < (2%:R : C)^-1) = false by apply/negbTE; rewrite invf_gt1 ?ltr0n // ltrn1.
by rewrite H1 P !ltxx.
Qed.
End Example114.
