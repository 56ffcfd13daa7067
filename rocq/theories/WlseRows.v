(** Rows of weight zero play no role in the least-square estimate. *)
From mathcomp Require Import all_ssreflect all_algebra.
From Verif Require Import WlseModel WlseProofs.
From Verif Require Base MestModel SpecMest MestProofs.
Set Implicit Arguments.
Unset Strict Implicit.
Unset Printing Implicit Defensive.
Import GRing.Theory.
Local Open Scope ring_scope.

Section Rows.
Variables (F : fieldType) (cj : {rmorphism F -> F}).

Lemma nth_error_nth T (d : T) l i x : List.nth_error l i = Some x -> nth d l i = x.
Proof. by elim: l i => [|y l IH] [|i] //=; [case | exact: IH]. Qed.

Lemma nth_error_size T (l : seq T) i x : List.nth_error l i = Some x -> (i < size l)%N.
Proof. by elim: l i => [|y l IH] [|i] //= /IH. Qed.

Lemma InP (l : seq nat) i : reflect (List.In i l) (i \in l).
Proof.
elim: l => [|x l IH] /=; first by constructor.
rewrite inE; apply: (iffP orP) => [[/eqP->|/IH]|[->|/IH]]; [by left|by right|by left; rewrite eqxx|by right].
Qed.

Lemma sorted_uniq (l : seq nat) : Sorted.StronglySorted lt l -> uniq l.
Proof.
elim: l => //= x l IH H; have [H1 H2] := Sorted.StronglySorted_inv H.
rewrite IH // andbT; apply/InP => G; move/List.Forall_forall: H2 => /(_ x G) /ltP; by rewrite ltnn.
Qed.

Lemma list_length T (l : seq T) : Datatypes.length l = size l. Proof. by []. Qed.

Lemma in_list_seq a n x : List.In x (List.seq a n) <-> (a <= x < a + n)%N.
Proof. rewrite List.in_seq; split=> [[H1 H2]|/andP [H1 H2]]; [apply/andP; split; [by apply/leP|by apply/ltP]|split; [by apply/leP|by apply/ltP]]. Qed.

(** sums over the retained rows *)
Lemma sum_left (R : zmodType) n (keep : nat -> Prop) (f g : nat -> R) (left : seq nat) :
  Sorted.StronglySorted lt left -> (forall x, List.In x left <-> (x < n)%N /\ keep x) ->
  (forall i, (i < n)%N -> List.In i left -> g i = f i) -> (forall i, (i < n)%N -> ~ List.In i left -> g i = 0) ->
  \sum_(i < n) g i = \sum_(k < size left) f (nth 0%N left k).
Proof.
move=> S M G1 G0; rewrite -(big_mkord xpredT (fun k => f (nth 0%N left k))) -(big_nth 0%N xpredT f) -(big_mkord xpredT g) /index_iota subn0.
rewrite (bigID (fun i => i \in left)) /= [X in _ + X]big1_seq ?addr0; last first.
  by move=> i /andP [/InP N]; rewrite mem_iota add0n => /andP [_ L]; exact: G0.
rewrite -big_filter; transitivity (\sum_(i <- left) g i).
  apply: perm_big; apply: uniq_perm; [by rewrite filter_uniq // iota_uniq|exact: sorted_uniq|].
  move=> i; rewrite mem_filter mem_iota add0n leq0n /=.
  by case: (boolP (i \in left)) => //= /InP /M [-> _].
by apply: eq_big_seq => i /InP H; apply: (G1 i _ H); case/M: H.
Qed.

Lemma pick_nth T (d : T) l left l' : SpecMest.pick l left l' ->
  size l' = size left /\ forall k, (k < size left)%N -> nth d l' k = nth d l (nth 0%N left k).
Proof.
elim=> [|i x rows xs H P [IH1 IH2]] //=; split; first by rewrite IH1.
by case=> [|k] /= Hk; [rewrite (nth_error_nth d H) | exact: IH2].
Qed.

Lemma retained_rows q (e : seq F) (b : seq 'rV[F]_q) (w : seq F) iv left e' b' :
  size b = size e -> size w = size e ->
  (forall n, lt n (Datatypes.length e) -> (List.In (BinInt.Z.of_nat n) iv -> List.nth_error w n = Some 0) /\
                                      (~ List.In (BinInt.Z.of_nat n) iv -> List.nth_error w n = Some 1)) ->
  SpecMest.remain (List.seq 0 (Datatypes.length e)) iv left -> SpecMest.pick e left e' -> SpecMest.pick b left b' ->
  wlse_rows cj e b (Some w) = wlse_rows cj e' b' None.
Proof.
move=> Hb Hwl Hw [S M] Pe Pb.
set keep := fun x => ~ List.In (BinInt.Z.of_nat x) iv.
have M' x : List.In x left <-> (x < size e)%N /\ keep x.
  rewrite M; split.
  - case=> p [Hp Hn]; have Lp := nth_error_size Hp; rewrite -list_length List.seq_length list_length in Lp.
    have : List.nth_error (List.seq 0 (Datatypes.length e)) p = Some p.
      have -> := BaseLemmas.nth_error_seq 0 (Datatypes.length e) p.
      by case: PeanoNat.Nat.ltb_spec => // /leP; rewrite list_length leqNgt Lp.
    by rewrite Hp => -[->].
  - case=> L Hk; exists x; split=> //.
    have -> := BaseLemmas.nth_error_seq 0 (Datatypes.length e) x.
    by case: PeanoNat.Nat.ltb_spec => // /leP; rewrite list_length leqNgt L.
have {Pe} [Se Ne] := pick_nth 0 Pe; have {Pb} [Sb Nb] := pick_nth 0 Pb.
have W i : (i < size e)%N -> (if size w == 1%N then nth 0 w 0 else nth 0 w i) = nth 0 w i.
  by move=> L; case: eqP => // E; rewrite Hwl in E; rewrite E in L; case: i L.
have W1 i : (i < size e)%N -> List.In i left -> nth 0 w i = 1.
  by move=> L /M' [_ K]; apply: nth_error_nth; apply: (proj2 (Hw i _)); [apply/ltP|].
have W0 i : (i < size e)%N -> ~ List.In i left -> nth 0 w i = 0.
  move=> L N; apply: nth_error_nth; apply: (proj1 (Hw i _)); first by apply/ltP.
  by case: (List.in_dec BinInt.Z.eq_dec (BinInt.Z.of_nat i) iv) => // K; case: N; apply/M'.
have EN : normal cj (rows (size e) b) (weights (size e) (Some w)) = normal cj (rows (size e') b') (weights (size e') None).
  apply/matrixP => j k; rewrite !mxE /=.
  rewrite (eq_bigr (fun i : 'I_(size e) => cj (nth 0 b i 0 j) * (nth 0 w i * nth 0 b i 0 k))); last first.
    by move=> i _; rewrite mul_diag_mx !mxE (W i (ltn_ord i)).
  rewrite (@sum_left _ (size e) keep (fun i => cj (nth 0 b i 0 j) * nth 0 b i 0 k) (fun i => cj (nth 0 b i 0 j) * (nth 0 w i * nth 0 b i 0 k)) left) //.
  - rewrite Se; apply: eq_bigr => i _; rewrite !mxE; congr (_ * _); by rewrite (Nb i (ltn_ord i)).
  - by move=> i L I; rewrite W1 // mul1r.
  - by move=> i L I; rewrite W0 // mul0r mulr0.
have ER : rhs cj (column e) (rows (size e) b) (weights (size e) (Some w)) = rhs cj (column e') (rows (size e') b') (weights (size e') None).
  apply/matrixP => j k; rewrite !mxE /=.
  rewrite (eq_bigr (fun i : 'I_(size e) => cj (nth 0 b i 0 j) * (nth 0 w i * nth 0 e i))); last first.
    by move=> i _; rewrite mul_diag_mx !mxE (W i (ltn_ord i)).
  rewrite (@sum_left _ (size e) keep (fun i => cj (nth 0 b i 0 j) * nth 0 e i) (fun i => cj (nth 0 b i 0 j) * (nth 0 w i * nth 0 e i)) left) //.
  - transitivity (\sum_(i < size e') cj (nth 0 b' i 0 j) * nth 0 e' i); last by apply: eq_bigr => i _; rewrite !mxE.
    by rewrite Se; apply: eq_bigr => i _; rewrite (Nb i (ltn_ord i)) (Ne i (ltn_ord i)).
  - by move=> i L I; rewrite W1 // mul1r.
  - by move=> i L I; rewrite W0 // mul0r mulr0.
by rewrite /wlse_rows /wlse EN ER.
Qed.
End Rows.
