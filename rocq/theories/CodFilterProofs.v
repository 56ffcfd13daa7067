(** Lemmas about the determination filter on complex windows. *)
From mathcomp Require Import all_ssreflect all_algebra.
From Verif Require Import WlseModel WlseProofs ErrModel CodModel CodProofs CodFilterModel SpecCodFilter.
From Verif Require Import Base BaseLemmas PrefilterModel SpecPrefilter PrefilterProofs.
From Coq Require Import Lia.
Set Implicit Arguments.
Unset Strict Implicit.
Unset Printing Implicit Defensive.
Import Order.POrderTheory GRing.Theory Num.Theory.
Local Open Scope ring_scope.

Section Filter.
Variables (C : numClosedFieldType) (q : nat).
Implicit Types (e : list C) (b : list 'rV[C]_q).

Lemma energyE e : norm2 (column e) = energy e.
Proof. by rewrite /norm2 /energy (big_nth 0) big_mkord; apply: eq_bigr => i _; rewrite mxE. Qed.

Lemma row_value e b (z : 'cV[C]_q) (i : 'I_(size e)) : (WlseModel.rows (size e) b *m z) i 0 = (seq.nth 0 b i *m z) 0 0.
Proof. by rewrite !mxE; apply: eq_bigr => j _; rewrite mxE. Qed.

Lemma misfitE e b z : List.length b = List.length e -> norm2 (column e - WlseModel.rows (size e) b *m z) = misfit e b z.
Proof.
move=> L; have -> : norm2 (column e - WlseModel.rows (size e) b *m z) = \sum_(i < size e) `|seq.nth 0 e i - (seq.nth 0 b i *m z) 0 0| ^+ 2.
  by apply: eq_bigr => i _; rewrite -row_value !mxE.
rewrite /misfit; elim: e b L => [|x e IH] [|r b] //=; first by rewrite big_ord0 big_nil.
by case=> L; rewrite big_ord_recl big_cons /= IH.
Qed.

Lemma silent e : (column e == 0) = false <-> not_silent e.
Proof.
split=> [H|[x [I N]]].
- have [i Hi] : exists i, column e i 0 != 0.
    apply/existsP; apply: contraFT H; rewrite negb_exists => /forallP H; apply/eqP/colP => i; by have := H i; rewrite negbK => /eqP ->; rewrite mxE.
  exists (seq.nth 0 e i); split; last by move: Hi; rewrite mxE => /eqP.
  have : leq (S i) (size e) by []. elim: e {H i Hi} (nat_of_ord i) => [|y e IH] [|n] //= L; [by left|right; exact: IH].
- apply/eqP => Z; apply: N; elim: e I Z => [|y e IH] //= [->|I] Z.
  + by have := congr1 (fun M : 'cV[C]_(size (x :: e)) => M 0 0) Z; rewrite !mxE.
  + apply: IH => //; apply/colP => i; by have := congr1 (fun M : 'cV[C]_(size (y :: e)) => M (lift 0 i) 0) Z; rewrite !mxE.
Qed.

Lemma independentE e b : List.length b = List.length e -> independent b <-> forall v : 'cV[C]_q, WlseModel.rows (size e) b *m v = 0 -> v = 0.
Proof.
move=> L; split=> H v Hv; apply: H.
- move=> r I; have [i Hi] : exists i : 'I_(size e), seq.nth 0 b i = r.
    have [n [Hn E]] : exists n, leq (S n) (size b) /\ seq.nth 0 b n = r.
      elim: b I {L Hv} => [|x b IH] //= [->|/IH [n [Hn E]]]; [by exists O|by exists (S n)].
    have Hn' : leq (S n) (size e) by rewrite -[size e]/(List.length e) -L.
    by exists (Ordinal Hn').
  by rewrite -Hi -row_value Hv mxE.
- apply/colP => i; rewrite row_value [RHS]mxE; apply: Hv.
  have : leq (S i) (size b) by rewrite -[size b]/(List.length b) L.
  elim: b {L} (nat_of_ord i) => [|x b IH] [|n] //= Hn; [by left|right; exact: IH].
Qed.

Lemma cod_block e b v : List.length b = List.length e -> block_cod e b = Ok v ->
  independent b /\ (not_silent e -> exists d, v = Finite d /\ explains e b d) /\ (~ not_silent e -> v = NotNumber).
Proof.
move=> L; rewrite /block_cod; case E: coeff_determination => [w|] //= -[<-].
split; first by apply/(independentE L); apply/(cod_exists (column e)); exists w.
split.
- move=> /silent /negbT X; have [d [least [-> [D [H1 [[z H2] H3]]]]]] := cod_least X E.
  exists d; split=> //; split=> //; exists least; split; first by move=> z'; rewrite -misfitE.
  by split; [exists z; rewrite -misfitE|rewrite -energyE].
- move=> N; have Z : column e = 0 by apply/eqP; case X: (column e == 0) => //; case: N; apply/silent.
  by apply: (@cod_zero C _ _ (WlseModel.rows (size e) b)); rewrite -Z.
Qed.

Lemma block_ok e b : List.length b = List.length e -> independent b -> exists v, block_cod e b = Ok v.
Proof. by move=> L /(independentE L) /(cod_exists (column e)) [v E]; exists v; rewrite /block_cod E. Qed.

Lemma block_fails e b x : List.length b = List.length e -> block_cod e b = Err x -> x = LinAlgError /\ ~ independent b.
Proof.
move=> L; case: (boolP true) => // _ E; split; last by move=> /(block_ok L) [v E']; rewrite E' in E.
by move: E; rewrite /block_cod; case: coeff_determination => //= -[].
Qed.

(** the explained part is a number between 0 and 1, and only one *)
Lemma energy_gt0 e : not_silent e -> 0 < energy e.
Proof. by move=> /silent /negbT X; rewrite -energyE lt0r norm2_eq0 X norm2_ge0. Qed.

Lemma misfit_ge0 e b z : 0 <= misfit e b z.
Proof. by apply: sumr_ge0 => p _; rewrite exprn_ge0. Qed.

Lemma misfit0 e b : List.length b = List.length e -> misfit e b 0 = energy e.
Proof. by move=> L; rewrite -misfitE // mulmx0 subr0 energyE. Qed.

Lemma explains_unique e b d d' : not_silent e -> explains e b d -> explains e b d' -> d = d'.
Proof.
move=> /energy_gt0 P [D [l [H1 [[z H2] H3]]]] [D' [l' [H1' [[z' H2'] H3']]]].
have E : l = l' by apply/eqP; rewrite eq_le {1}H2' {2}H2 H1 H1'.
apply/eqP; rewrite -(@eqr_expn2 _ 2) //; apply/eqP.
by apply: (mulIf (lt0r_neq0 P)); rewrite H3 H3' E.
Qed.

Lemma explains_range e b d : List.length b = List.length e -> not_silent e -> explains e b d -> d <= 1.
Proof.
move=> L /energy_gt0 P [D [l [H1 [[z H2] H3]]]].
rewrite -(@expr_le1 _ 2) // -(ler_pmul2r P) mul1r H3 ler_subl_addr ler_addl H2; exact: misfit_ge0.
Qed.

Lemma rows_len T (l : list T) lo hi : List.length (SpecPrefilter.rows lo hi l) = Nat.min (hi - lo) (List.length l - lo).
Proof. by rewrite /SpecPrefilter.rows List.firstn_length List.skipn_length. Qed.
Lemma rows_lens e b lo hi : List.length b = List.length e -> List.length (SpecPrefilter.rows lo hi b) = List.length (SpecPrefilter.rows lo hi e).
Proof. by move=> L; rewrite !rows_len L. Qed.

Lemma filter_rejected cmin cmax size e b iv : (0 < size)%coq_nat -> List.length b = List.length e ->
  determination_filter cmin cmax size e b = Ok iv ->
  StronglySorted BinInt.Z.lt iv /\
  forall j, List.In j iv <-> exists i lo hi d, j = BinInt.Z.of_nat i /\ in_block size (List.length e) i lo hi /\
    let e' := SpecPrefilter.rows lo hi e in let b' := SpecPrefilter.rows lo hi b in
    not_silent e' /\ explains e' b' d /\ (d < cmin \/ cmax < d).
Proof.
move=> S L H; have [Hs I] := filter_spec _ _ _ _ _ _ _ _ _ _ _ _ S L H; split=> // j; rewrite I; split.
- move=> [i [lo [hi [v [-> [B [V O]]]]]]]; have L' := rows_lens lo hi L.
  have [_ [V1 V2]] := cod_block L' V.
  have [N|N] : not_silent (SpecPrefilter.rows lo hi e) \/ ~ not_silent (SpecPrefilter.rows lo hi e).
    by case Z: (column (SpecPrefilter.rows lo hi e) == 0); [right=> /silent; rewrite Z|left; apply/silent].
  + have [d [E X]] := V1 N; exists i, lo, hi, d; subst v; split=> //; split=> //; split=> //; split=> //.
  + by move: O; rewrite (V2 N) /=; case.
- move=> [i [lo [hi [d [-> [B [N [X O]]]]]]]]; have L' := rows_lens lo hi L.
  have [v V] : exists v, block_cod (SpecPrefilter.rows lo hi e) (SpecPrefilter.rows lo hi b) = Ok v.
    have Hl : (i < List.length e)%coq_nat by case: B => H1 [_ [[E1 H2]|[E1 _]]]; lia.
    move: H; rewrite /determination_filter /cod_filter; case W: value => [c|] //= _.
    have [_ P] := value_spec _ _ _ _ _ _ S L W.
    have [lo' [hi' [v [B' [V _]]]]] := P i Hl; exists v.
    by have [-> ->] := in_block_fun _ _ _ _ _ _ _ S B B'.
  exists i, lo, hi, v; split=> //; split=> //; split=> //.
  have [_ [V1 _]] := cod_block L' V; have [d' [-> X']] := V1 N.
  by rewrite (explains_unique N X' X) /=.
Qed.

Lemma filter_value cmin cmax size e b : (exists iv, determination_filter cmin cmax size e b = Ok iv) <-> exists c, determination size e b = Ok c.
Proof.
rewrite /determination_filter /cod_filter /determination; case: value => [c|x] /=; split=> [] [u] //; by eexists.
Qed.

Lemma filter_ok cmin cmax size e b : (0 < size)%coq_nat -> List.length b = List.length e -> e <> [] ->
  (exists iv, determination_filter cmin cmax size e b = Ok iv) <->
  forall i lo hi, in_block size (List.length e) i lo hi -> independent (SpecPrefilter.rows lo hi b).
Proof.
move=> S L Ne; rewrite filter_value; split=> [[c W] i lo hi B|I].
- have Hl : (i < List.length e)%coq_nat by case: B => H1 [_ [[E1 H2]|[E1 _]]]; lia.
  have [_ P] := value_spec _ _ _ _ _ _ S L W; have [lo' [hi' [v [B' [V _]]]]] := P i Hl.
  have [E1 E2] := in_block_fun _ _ _ _ _ _ _ S B B'; subst lo' hi'.
  by have [] := cod_block (rows_lens lo hi L) V.
- apply: value_ok => // i lo hi B; apply: block_ok; [exact: rows_lens|exact: I B].
Qed.

Lemma filter_fails cmin cmax size e b x : (0 < size)%coq_nat -> List.length b = List.length e -> e <> [] ->
  determination_filter cmin cmax size e b = Err x -> x = LinAlgError.
Proof.
move=> S L Ne; rewrite /determination_filter /cod_filter; case W: value => [c|y] //= -[<-].
have [i [lo [hi [_ F]]]] := value_err _ _ _ _ _ _ S L Ne W.
by have [] := block_fails (rows_lens lo hi L) F.
Qed.

(** ** other units *)
Lemma block_units (c : C) (M : 'M[C]_q) e b : c != 0 -> M \in unitmx ->
  block_cod (List.map (fun x => c * x) e) (List.map (fun r => r *m M) b) = block_cod e b.
Proof.
move=> Hc U; rewrite /block_cod /column; have -> : size (List.map (fun x => c * x) e) = size e by exact: List.map_length.
have -> : (\col_(i < size e) seq.nth 0 (List.map (fun x => c * x) e) i : 'cV[C]_(size e)) = c *: \col_(i < size e) seq.nth 0 e i.
  apply/colP => i; rewrite !mxE; case: i => i /=; elim: e i => [|x e IH] [|i] //= Hi; exact: IH.
have -> : WlseModel.rows (size e) (List.map (fun r => r *m M) b) = WlseModel.rows (size e) b *m M.
  apply/matrixP => i j; rewrite !mxE.
  have -> : seq.nth 0 (List.map (fun r => r *m M) b) i = seq.nth 0 b i *m M.
    by elim: b (nat_of_ord i) => [|r b IH] [|n] //=; rewrite mul0mx.
  by rewrite !mxE; apply: eq_bigr => k _; rewrite mxE.
by rewrite cod_scale // cod_change.
Qed.

Lemma filter_units (c : C) (M : 'M[C]_q) cmin cmax size e b : c != 0 -> M \in unitmx ->
  determination_filter cmin cmax size (List.map (fun x => c * x) e) (List.map (fun r => r *m M) b) = determination_filter cmin cmax size e b.
Proof.
move=> Hc U; rewrite /determination_filter /cod_filter (value_through _ (@block_cod C q)) //.
move=> e' b'; exact: block_units.
Qed.

(** ** nothing rejected *)
Lemma no_member (iv : list Z) : (forall j, ~ List.In j iv) -> iv = [].
Proof. by case: iv => // j iv /(_ j) H; case: H; left. Qed.

Lemma keeps_all cmin cmax size e b iv : (0 < size)%coq_nat -> List.length b = List.length e -> cmin <= 0 -> 1 <= cmax ->
  determination_filter cmin cmax size e b = Ok iv -> iv = [].
Proof.
move=> S L Hmin Hmax H; apply: no_member => j; have [_ I] := filter_rejected S L H.
move=> /I [i [lo [hi [d [_ [_ [N [X [O|O]]]]]]]]].
- have [D _] := X; by have := lt_le_trans O Hmin; rewrite le_gtF.
- have D := explains_range (rows_lens lo hi L) N X; by have := le_lt_trans Hmax O; rewrite le_gtF.
Qed.

Lemma misfit_exact e b (z : 'cV[C]_q) : List.length b = List.length e -> (forall x r, List.In (x, r) (combine e b) -> x = (r *m z) 0 0) -> misfit e b z = 0.
Proof.
rewrite /misfit => _; elim: (combine e b) => [|[x r] l IH] H; first by rewrite big_nil.
by rewrite big_cons /= (H x r (or_introl erefl)) subrr normr0 expr0n /= add0r IH // => y s I; apply: H; right.
Qed.

Lemma explains_exact e b (z : 'cV[C]_q) d : List.length b = List.length e -> not_silent e ->
  (forall x r, List.In (x, r) (combine e b) -> x = (r *m z) 0 0) -> explains e b d -> d = 1.
Proof.
move=> L N X D; apply: (explains_unique N D); split; first exact: ler01.
exists 0; split; first by move=> z'; exact: misfit_ge0.
by split; [exists z; rewrite misfit_exact|rewrite expr1n mul1r subr0].
Qed.

Lemma keeps_exact cmin cmax size e b iv : (0 < size)%coq_nat -> List.length b = List.length e -> cmin <= 1 -> 1 <= cmax ->
  (forall i lo hi, in_block size (List.length e) i lo hi ->
     exists z : 'cV[C]_q, forall x r, List.In (x, r) (combine (SpecPrefilter.rows lo hi e) (SpecPrefilter.rows lo hi b)) -> x = (r *m z) 0 0) ->
  determination_filter cmin cmax size e b = Ok iv -> iv = [].
Proof.
move=> S L Hmin Hmax Z H; apply: no_member => j; have [_ I] := filter_rejected S L H.
move=> /I [i [lo [hi [d [_ [B [N [X O]]]]]]]]; have [z Hz] := Z _ _ _ B.
have E := explains_exact (rows_lens lo hi L) N Hz X; subst d.
by case: O => O; [have := lt_le_trans O Hmin|have := le_lt_trans Hmax O]; rewrite ltxx.
Qed.
End Filter.
