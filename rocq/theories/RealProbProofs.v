(** The real formulation with plain least squares is the complex problem. *)
From Coq Require Import Reals Lra.
From Coquelicot Require Import Complex.
From mathcomp Require Import all_ssreflect all_algebra.
From Verif Require Import WlseModel WlseProofs CField EvenOdd Realify.
From Verif Require Import Base BaseLemmas Arith MestModel SpecMest MestProofs WeightModel RobustModel BiModel FullModel FullProofs RealPbModel RealPbProofs RealProbModel SpecRealProb.
Set Implicit Arguments.
Unset Strict Implicit.
Unset Printing Implicit Defensive.
Import GRing.Theory.
Local Open Scope ring_scope.

(** ** lists with two entries for each one *)
Definition dbl {T U} (f g : T -> U) (l : list T) : list U := flat_map (fun x => [f x; g x]) l.
Lemma dbl_length {T U} (f g : T -> U) l : List.length (dbl f g l) = Nat.mul 2 (List.length l).
Proof. elim: l => [|x l IH] //=. rewrite IH /=. Coq.micromega.Lia.lia. Qed.
Lemma dbl_map {T U V} (f g : T -> U) (h : U -> V) l : List.map h (dbl f g l) = dbl (h \o f) (h \o g) l.
Proof. by elim: l => [|x l IH] //=; rewrite IH. Qed.
Lemma nth_list {T} (d : T) l n : List.nth n l d = seq.nth d l n.
Proof. by elim: l n => [|x l IH] [|n] //=. Qed.
Lemma nth_dbl {T U} (f g : T -> U) d d' l i : f d = d' -> g d = d' ->
  seq.nth d' (dbl f g l) i = if odd i then g (seq.nth d l i./2) else f (seq.nth d l i./2).
Proof.
move=> Hf Hg; elim: l i => [|x l IH] i; first by rewrite !nth_nil Hf Hg; case: odd.
case: i => [|[|i]] //=; rewrite IH negbK.
by case: (odd i); rewrite ?uphalf_half.
Qed.
Lemma map_seq_dbl {T} (f : nat -> T) n a : List.map f (List.seq (Nat.mul 2 a) (Nat.mul 2 n)) = dbl (fun t => f (Nat.mul 2 t)) (fun t => f (S (Nat.mul 2 t))) (List.seq a n).
Proof.
elim: n a => [|n IH] a; first by rewrite Nat.mul_0_r.
rewrite (_ : Nat.mul 2 (S n) = S (S (Nat.mul 2 n))); last by Coq.micromega.Lia.lia.
cbn [List.seq List.map dbl flat_map app]; congr (_ :: _ :: _).
have E : S (S (Nat.mul 2 a)) = Nat.mul 2 (S a) by Coq.micromega.Lia.lia.
by rewrite E; exact: (IH (S a)).
Qed.

(** ** both parts of the rejected rows *)
Lemma both_memb a l : memb Z.eqb (Z.of_nat (Nat.mul 2 a)) (both_parts l) = memb Z.eqb (Z.of_nat a) l /\
  memb Z.eqb (Z.of_nat (S (Nat.mul 2 a))) (both_parts l) = memb Z.eqb (Z.of_nat a) l.
Proof.
elim: l => [|x l [IH1 IH2]] //; cbn [both_parts flat_map app memb existsb] in *.
change (flat_map (fun i : Z => [(2 * i)%Z; (2 * i + 1)%Z]) l) with (both_parts l).
unfold memb in *; cbn [existsb]; rewrite IH1 IH2.
split; repeat match goal with |- context [Z.eqb ?x ?y] => destruct (Z.eqb_spec x y) end; try reflexivity; exfalso; Coq.micromega.Lia.lia.
Qed.
Lemma del_both {T U} (f g : T -> U) iv l a : del (Nat.mul 2 a) (both_parts iv) (dbl f g l) = dbl f g (del a iv l).
Proof.
elim: l a => [|x l IH] a //; cbn [dbl flat_map app del].
have [-> ->] := both_memb a iv.
rewrite (_ : S (S (Nat.mul 2 a)) = Nat.mul 2 (S a)); last by Coq.micromega.Lia.lia.
by rewrite IH; case: (memb Z.eqb (Z.of_nat a) iv).
Qed.
Lemma both_In i l : In i (both_parts l) <-> exists j, In j l /\ (i = 2 * j \/ i = 2 * j + 1)%Z.
Proof. unfold both_parts; rewrite in_flat_map; split; [move=> [j [Hj [<-|[<-|[]]]]]; exists j; auto|move=> [j [Hj [->|->]]]; exists j; split; auto; [by left|by right; left]]. Qed.
Lemma both_nn l : nn l -> nn (both_parts l).
Proof. move=> H i /both_In [j [Hj E]]; have := H j Hj; case: E => ->; Coq.micromega.Lia.lia. Qed.
Lemma both_legal n l : legal (Nat.mul 2 n) (both_parts l) <-> legal n l.
Proof.
split=> H i Hi.
- have : In (2 * i)%Z (both_parts l) by apply/both_In; exists i; auto.
  move=> /H; Coq.micromega.Lia.lia.
- move: Hi => /both_In [j [Hj E]]; have := H j Hj; case: E => ->; Coq.micromega.Lia.lia.
Qed.
Lemma eliminate_both {T U} (f g : T -> U) (l : list T) iv : nn iv ->
  eliminate (dbl f g l) (both_parts iv) = match eliminate l iv with Ok l => Ok (dbl f g l) | Err x => Err x end.
Proof.
move=> Hn; case E: (eliminate l iv) => [l'|x].
- apply eliminate_ok in E as [E ->]; [|exact Hn].
  apply eliminate_ok; [by apply: both_nn|]; split; [by rewrite dbl_length; apply/both_legal|by rewrite -(del_both f g iv l 0)].
- case E2: (eliminate (dbl f g l) (both_parts iv)) => [l2|x2].
    apply eliminate_ok in E2 as [E2 _]; [|by apply: both_nn].
    move: E2; rewrite dbl_length => /both_legal L.
    have := proj2 (eliminate_ok l iv (del 0 iv l) Hn) (conj L erefl); by rewrite E.
  congr Err; move: E E2; case: iv Hn => [|j iv] Hn //=; unfold np_delete, check.
  do 2 case: (forallb _ _); cbn [bind]; congruence.
Qed.

(** ** one plain estimate *)
Section One.
Variable q : nat.
Definition row_re (x : 'rV[C]_q) : 'rV[C]_(2 * q) := \row_k if odd k then - im (x 0 (half_ord k)) else re (x 0 (half_ord k)).
Definition row_im (x : 'rV[C]_q) : 'rV[C]_(2 * q) := \row_k if odd k then re (x 0 (half_ord k)) else im (x 0 (half_ord k)).

Lemma solve_both (e : list C) (b : list 'rV[C]_q) : List.length b = List.length e ->
  solve (k := fullK (2 * q)) (dbl re im e) (dbl row_re row_im b) None
  = match solve (k := fullK q) e b None with Ok z => Ok (vec z) | Err x => Err x end.
Proof.
move=> L; rewrite /solve /= /full_wlse /= (@wlse_rows_n _ _ (muln 2 (size e))); last by exact: dbl_length.
rewrite (@wlse_rows_n _ _ (size e)) // /weights /=.
rewrite (_ : (\col_i _) = vec (\col_(i < size e) seq.nth 0 e i)); last first.
  by apply/matrixP => i j; rewrite !mxE (@nth_dbl _ _ _ _ 0) ?raddf0.
rewrite (_ : rows _ _ = rho (rows (size e) b)); last first.
  apply/matrixP => i j; rewrite !mxE (@nth_dbl _ _ _ _ 0); last 2 first.
  - by apply/matrixP => i' j'; rewrite !mxE !raddf0; case: odd; rewrite ?oppr0.
  - by apply/matrixP => i' j'; rewrite !mxE !raddf0; case: odd.
  by case: (odd i); rewrite !mxE.
by rewrite wlse_real; case: (wlse _ _ _ _).
Qed.
End One.

(** ** merging the rejected rows, of which there are some before the first step only *)
Lemma dels_repeat m : forall l, dels l (repeat [] m) = l.
Proof. elim: m => [|m IH] l //; change (dels (del 0 [] l) (repeat [] m) = l); by rewrite del_nil IH. Qed.
Lemma legals_repeat m : forall l, legals l (repeat [] m).
Proof. by elim: m => [|m IH] l //=. Qed.

Lemma merge_first n iv m : legal n iv -> exists l, merge_invalid_indices (iv :: repeat [] m) = Ok l /\
  StronglySorted Z.lt l /\ forall i, In i l <-> In i iv.
Proof.
move=> L; have LL : legals (arange (Z.of_nat n)) (iv :: repeat [] m).
  split; [|exact: legals_repeat]. by unfold arange; rewrite map_length seq_length Nat2Z.id.
have [l [E [S H]]] := merge_spec n _ LL.
exists l; split; [exact: E|]; split; [exact: S|] => i; rewrite H.
change (dels (arange (Z.of_nat n)) (iv :: repeat [] m)) with (dels (del 0 iv (arange (Z.of_nat n))) (repeat [] m)).
rewrite dels_repeat del_In; split.
- move=> [B N]; case: (in_dec Z.eq_dec i iv) => // NI; exfalso; apply: N.
  exists (Z.to_nat i); rewrite nth_arange; last by Coq.micromega.Lia.lia.
  rewrite Nat.add_0_l Z2Nat.id; last by Coq.micromega.Lia.lia.
  by rewrite (proj2 (Z.ltb_lt _ _)); last by Coq.micromega.Lia.lia.
- move=> I; split; [exact: L|] => -[p [P N]]; apply: N.
  move: P; rewrite nth_arange; last by Coq.micromega.Lia.lia.
  by case: (_ <? _)%Z => // -[->].
Qed.

Lemma both_sorted l : StronglySorted Z.lt l -> StronglySorted Z.lt (both_parts l).
Proof.
elim=> [|x l' S IH F]; first by constructor.
change (StronglySorted Z.lt ((2 * x)%Z :: (2 * x + 1)%Z :: both_parts l')).
have G : forall y, In y (both_parts l') -> (2 * x + 1 < y)%Z.
  move=> y /both_In [j [Hj E]]; have := proj1 (List.Forall_forall _ _) F j Hj; case: E => ->; Coq.micromega.Lia.lia.
constructor; [constructor; [exact: IH|]|]; apply/List.Forall_forall => y.
- exact: G.
- case=> [<-|/G]; Coq.micromega.Lia.lia.
Qed.

Lemma sorted_ext l : forall l', StronglySorted Z.lt l -> StronglySorted Z.lt l' -> (forall i : Z, In i l <-> In i l') -> l = l'.
Proof.
elim: l => [|x l IH] [|y l'] S S' H //.
- by have [] := proj2 (H y) (or_introl erefl).
- by have [] := proj1 (H x) (or_introl erefl).
inversion S as [|? ? Sl Fl]; inversion S' as [|? ? Sl' Fl']; subst.
move: Fl Fl' => /List.Forall_forall Fl /List.Forall_forall Fl'.
have E : x = y.
  case: (proj1 (H x) (or_introl erefl)) => // I1; case: (proj2 (H y) (or_introl erefl)) => // I2.
  have := Fl _ I2; have := Fl' _ I1; Coq.micromega.Lia.lia.
subst y; congr cons; apply: IH => // i; split=> I.
- case: (proj1 (H i) (or_intror I)) => // E; subst i; have := Fl _ I; Coq.micromega.Lia.lia.
- case: (proj2 (H i) (or_intror I)) => // E; subst i; have := Fl' _ I; Coq.micromega.Lia.lia.
Qed.

Lemma merge_both n iv m : legal n iv -> exists l, merge_invalid_indices (iv :: repeat [] m) = Ok l /\
  merge_invalid_indices (both_parts iv :: repeat [] m) = Ok (both_parts l).
Proof.
move=> L; have [l [E [S H]]] := merge_first m L.
have [l' [E' [S' H']]] := merge_first m (proj2 (both_legal n iv) L).
exists l; split; [exact: E|]; rewrite E'; congr Ok; apply: sorted_ext => //; [exact: both_sorted|] => i.
by rewrite H' !both_In; split=> -[j [/H Hj B]]; exists j.
Qed.

(** ** the chain of plain estimates *)
Section Chain.
Context {k : Kern} {St : Type}.
Lemma chain_plain (o : opts k) e b m z0 ii st : chain o e b (repeat None (S m)) z0 ii st =
  (bind (eliminate e ii) (fun e => bind (eliminate b ii) (fun b => bind (check (negb (Nat.eqb (List.length e) 0)) ValueError)
     (fun _ => bind (solve e b None) (fun z => Ok (Some z, ii :: repeat [] (S m)))))), st) :> res _ * St.
Proof.
elim: m z0 ii e b => [|m IH] z0 ii e b.
- cbn [repeat chain]; case: (eliminate e ii) => [e'|] //=; case: (eliminate b ii) => [b'|] //=.
  by case: (check _ _) => //= _; case: (solve _ _ _).
- change (repeat None (S (S m))) with (None :: repeat (@None (wfun k St)) (S m)); cbn [chain].
  case: (eliminate e ii) => [e'|] //; cbn [bind]; case: (eliminate b ii) => [b'|] //; cbn [bind].
  case E: (check _ _) => [u|] //; cbn [bind m_estimate]; case Z: (solve _ _ _) => [z|] //; cbn [bind].
  by rewrite IH; cbn [eliminate bind]; rewrite E; cbn [bind]; rewrite Z.
Qed.
End Chain.

Section All.
Variables (q : nat) (St : Type).

Lemma dbl_empty {T U} (f g : T -> U) l : Nat.eqb (List.length (dbl f g l)) 0 = Nat.eqb (List.length l) 0.
Proof. by case: l. Qed.

Lemma del_same_length {T U} iv (l : list T) : forall (l' : list U) a, List.length l = List.length l' -> List.length (del a iv l) = List.length (del a iv l').
Proof.
elim: l => [|x l IH] [|x' l'] a //= [L].
by case: (memb _ _ _) => /=; rewrite (IH l').
Qed.

Lemma chain_both (o : opts (fullK q)) (o' : opts (fullK (2 * q))) e b m z0 z0' iv (st : St) : nn iv -> List.length e = List.length b ->
  match chain o e b (repeat None (S m)) z0 iv st, chain o' (dbl re im e) (dbl (@row_re q) (@row_im q) b) (repeat None (S m)) z0' (both_parts iv) st with
  | (Ok (Some z, l), _), (Ok (z', l'), _) => z' = Some (vec z) /\ l = iv :: repeat [] (S m) /\ l' = both_parts iv :: repeat [] (S m) /\ legal (List.length e) iv
  | (Err x, _), (Err x', _) => x' = x
  | _, _ => False
  end.
Proof.
move=> Hn L; rewrite !chain_plain !eliminate_both //.
case Ee: (eliminate e iv) => [e1|] //; case Eb: (eliminate b iv) => [b1|] //.
apply eliminate_ok in Ee as [Le ->]; [|exact Hn]. apply eliminate_ok in Eb as [Lb ->]; [|exact Hn].
cbn [bind]; rewrite dbl_empty; case: (check _ _) => [u|] //; cbn [bind].
rewrite solve_both; last by apply: esym; apply: del_same_length.
by case: (solve _ _ _) => [z|] //=; split.
Qed.

Definition same_result (r : res (list (option 'cV[C]_q * list Z))) (r' : res (list (option 'cV[C]_(2 * q) * list Z))) : Prop :=
  match r, r' with
  | Ok rs, Ok rs' => List.Forall2 (fun x x' => exists z, fst x = Some z /\ fst x' = Some (vec z) /\ snd x' = both_parts (snd x)) rs rs'
  | Err x, Err x' => x' = x
  | _, _ => False
  end.

Lemma each_both (o : opts (fullK q)) (o' : opts (fullK (2 * q))) b m outputs : forall inits inits' ivs ivs' (st : St),
  List.Forall (fun e => List.length e = List.length b) outputs -> List.length inits' = List.length inits ->
  List.Forall2 (fun iv iv' => match iv with Ok l => nn l /\ iv' = Ok (both_parts l) | Err x => iv' = Err x end) ivs ivs' ->
  same_result (fst (each_output o b (repeat None (S m)) outputs inits ivs st))
    (fst (each_output o' (dbl (@row_re q) (@row_im q) b) (repeat None (S m)) (List.map (dbl re im) outputs) inits' ivs' st)).
Proof.
elim: outputs => [|e outputs IH] [|z0 inits] [|z0' inits'] ivs ivs' st HL Hi Hv //; try by constructor.
inversion Hv as [|iv iv' ivs1 ivs1' H1 H2]; subst; first by constructor.
inversion HL as [|? ? L1 L2]; subst; injection Hi => Hi'.
cbn [each_output List.map]; case: iv H1 {Hv} => [l|x] => [[Hn ->]|->] //.
have := chain_both o o' m z0 z0' st Hn L1.
rewrite !chain_plain; set p1 := bind _ _; set p2 := bind _ _.
case: p1 => [[[z|] l1]|x]; case: p2 => [[z' l2]|x'] // E.
move: E => [-> [-> [-> Hl]]]; cbn [bind].
have [mm [-> ->]] := merge_both (S m) Hl; cbn [bind].
have := IH inits inits' ivs1 ivs1' st L2 Hi' H2.
case: (each_output o b _ outputs inits ivs1 st) => [r1 st1]; case: (each_output o' _ _ _ inits' ivs1' st) => [r2 st2].
case: r1 => [rs1|x1]; case: r2 => [rs2|x2] //= H; constructor => //=.
by exists z.
Qed.

Lemma iv_both p iv iv' : leaves_out_both iv iv' ->
  match iv_each p iv, iv_each p iv' with
  | Ok ivs, Ok ivs' => List.Forall2 (fun iv iv' => match iv with Ok l => nn l /\ iv' = Ok (both_parts l) | Err x => iv' = Err x end) ivs ivs'
  | Err x, Err x' => x' = x
  | _, _ => False
  end.
Proof.
have R l : nn l -> List.Forall2 (fun iv iv' => match iv with Ok l => nn l /\ iv' = Ok (both_parts l) | Err x => iv' = Err x end)
    (repeat (Ok l) p) (repeat (Ok (both_parts l)) p) by move=> H; elim: p => [|n IH] /=; constructor.
have N : nn [] by [].
have F l l' : List.Forall2 (fun iv iv' => match iv with Ok l => nn l /\ iv' = Ok (both_parts l) | Err x => iv' = Err x end) l l' ->
  match (_ <- check (negb (Nat.eqb (List.length l) 0)) IndexError ;; _ <- check (Nat.eqb (List.length l) p) AssertionError ;; Ok l),
        (_ <- check (negb (Nat.eqb (List.length l') 0)) IndexError ;; _ <- check (Nat.eqb (List.length l') p) AssertionError ;; Ok l') with
  | Ok ivs, Ok ivs' => List.Forall2 (fun iv iv' => match iv with Ok l => nn l /\ iv' = Ok (both_parts l) | Err x => iv' = Err x end) ivs ivs'
  | Err x, Err x' => x' = x
  | _, _ => False
  end.
  move=> H; rewrite -(Forall2_len _ _ _ H); unfold check.
  by case: (Nat.eqb _ 0) => //=; case: (Nat.eqb _ p).
case: iv => [|l||ll] //; cbn [leaves_out_both].
- by move=> ->; apply: F; apply: R.
- move=> [H ->]; case: l H => [|x l] H; first by apply: F; apply: R.
  by apply: (F (repeat (Ok (x :: l)) p) (repeat (Ok (both_parts (x :: l))) p)); apply: R.
- move=> [H ->]; case: ll H => [|x ll] H; first by apply: F; apply: R.
  apply: (F (List.map Ok (x :: ll)) (List.map Ok (List.map both_parts (x :: ll)))).
  by elim: H => [|y l' Hy H IH] /=; constructor.
Qed.

Lemma transfer_both (o : opts (fullK q)) (o' : opts (fullK (2 * q))) b m outputs iv iv' (st : St) :
  List.Forall (fun e => List.length e = List.length b) outputs -> leaves_out_both iv iv' ->
  same_result (fst (transfer_function o outputs b (repeat None (S m)) None iv st))
    (fst (transfer_function o' (List.map (dbl re im) outputs) (dbl (@row_re q) (@row_im q) b) (repeat None (S m)) None iv' st)).
Proof.
move=> HL Hiv; unfold transfer_function; rewrite map_length; have := iv_both (List.length outputs) Hiv.
case: (iv_each _ iv) => [ivs|x]; case: (iv_each _ iv') => [ivs'|x'] // Hv; cbn [bind].
have C1 : List.forallb (fun e : list C => Nat.eqb (List.length e) (List.length b)) outputs = true.
  by apply/forallb_forall => e He; apply/Nat.eqb_eq; exact: (proj1 (List.Forall_forall _ _) HL).
have C2 : List.forallb (fun e : list C => Nat.eqb (List.length e) (List.length (dbl (@row_re q) (@row_im q) b))) (List.map (dbl re im) outputs) = true.
  apply/forallb_forall => e He; apply/Nat.eqb_eq; move: He => /in_map_iff [e0 [<- He]].
  by rewrite !dbl_length (proj1 (List.Forall_forall _ _) HL e0 He).
rewrite C1 C2; unfold check; rewrite !repeat_length Nat.eqb_refl; cbn [bind].
by apply: each_both => //; rewrite !repeat_length.
Qed.
End All.

(** ** the rows of the real inputs *)
Lemma nth_inputs (m : list (list C)) k : List.nth k (List.map (List.map RtoC) (real_inputs m)) [] =
  if odd k then dbl (fun z => RtoC (Ropp (Im z))) re (List.nth k./2 m []) else dbl re im (List.nth k./2 m []).
Proof.
elim: m k => [|row m IH] [|[|k]] //=.
- by case: (odd k).
- exact: (dbl_map (fun z => Re z) (fun z => Im z) RtoC row).
- exact: (dbl_map (fun z => Ropp (Im z)) (fun z => Re z) RtoC row).
- by rewrite IH negbK.
Qed.

Lemma dbl_of_map {S T U} (f g : T -> U) (f' g' : S -> U) (h : S -> T) l : (forall x, f (h x) = f' x) -> (forall x, g (h x) = g' x) ->
  dbl f g (List.map h l) = dbl f' g' l.
Proof. by move=> Hf Hg; elim: l => [|x l IH] //=; rewrite IH Hf Hg. Qed.

Lemma rows_both q n (m : list (list C)) :
  rows_of (2 * q) (Nat.mul 2 n) (List.map (List.map RtoC) (real_inputs m)) = dbl (@row_re q) (@row_im q) (rows_of q n m).
Proof.
have Z : RtoC (Ropp (Im (RtoC 0))) = RtoC 0 by congr RtoC; rewrite /= Ropp_0.
have M (x : C) : - im x = RtoC (Ropp (Im x)) by apply: injective_projections; rewrite /= ?Ropp_0.
unfold rows_of; rewrite (map_seq_dbl _ n 0); apply: esym; apply: dbl_of_map => t; apply/matrixP => i k; rewrite !mxE nth_inputs.
- have O : odd (Nat.mul 2 t) = false by change (odd (2 * t) = false); rewrite mul2n odd_double.
  have H : (Nat.mul 2 t)./2 = t by change ((2 * t)./2 = t); rewrite mul2n doubleK.
  by case: (odd k); rewrite !nth_list (@nth_dbl _ _ _ _ (RtoC 0)) ?O ?H.
- have O : odd (S (Nat.mul 2 t)) = true by change (odd (2 * t).+1 = true); rewrite mul2n /= odd_double.
  have H : (S (Nat.mul 2 t))./2 = t by change ((2 * t).+1./2 = t); rewrite mul2n /= uphalf_double.
  by case: (odd k); rewrite !nth_list (@nth_dbl _ _ _ _ (RtoC 0)) ?O ?H.
Qed.

(** ** the estimate of the real problem, decoded *)
Lemma new_estimate_vec q (z : 'cV[C]_q) iv : new_estimate (Some (vec z), iv) = Ok (z, iv).
Proof. by congr (Ok (_, _)); apply/matrixP => i j; rewrite !mxE !eo re_im ord1. Qed.

Lemma real_prob_plain St (inputs : list (list C)) n (o : opts (fullK (List.length inputs))) (o' : opts (fullK (2 * List.length inputs)))
    (outputs : list (list C)) m iv iv' (st : St) : inputs <> [] -> List.Forall (fun line => List.length line = n) inputs ->
  List.Forall (fun line => List.length line = n) outputs -> leaves_out_both iv iv' ->
  match fst (transfer_function o outputs (rows_of (List.length inputs) n inputs) (repeat None (S m)) None iv st),
        fst (real_prob o' outputs (repeat None (S m)) None iv' st) with
  | Ok rs, Ok rs' => List.Forall2 (fun r r' => fst r = Some (fst r') /\ snd r' = both_parts (snd r)) rs rs'
  | Err x, Err x' => x' = x
  | _, _ => False
  end.
Proof.
move=> Hne Hin Hout Hiv.
have Hn : match inputs with [] => O | line :: _ => List.length line end = n.
  by case: inputs Hne Hin {o o'} => [|l inputs] // _ H; inversion H.
have Hb : List.length (rows_of (List.length inputs) n inputs) = n by unfold rows_of; rewrite map_length seq_length.
have HL : List.Forall (fun e => List.length e = List.length (rows_of (List.length inputs) n inputs)) outputs by rewrite Hb.
have T := transfer_both o o' m st HL Hiv.
unfold real_prob; rewrite Hn.
have -> : Nat.eqb (List.length inputs) 0 = false by case: (inputs) Hne.
have -> : List.forallb (fun line : list C => Nat.eqb (List.length line) n) inputs = true.
  by apply/forallb_forall => l Hl; apply/Nat.eqb_eq; exact: (proj1 (List.Forall_forall _ _) Hin).
cbn [negb andb check bind].
have -> : mapM (new_line n) outputs = Ok (List.map (dbl re im) outputs).
  elim: {HL T} Hout => [|l ls Hl Hls IH] //; cbn [mapM List.map]; rewrite IH /new_line Hl Nat.eqb_refl; cbn [bind].
  by congr (Ok (_ :: _)); exact: (dbl_map (fun z => Re z) (fun z => Im z) RtoC l).
rewrite rows_both; move: T.
case: (transfer_function o _ _ _ _ _ _) => [r st1]; case: (transfer_function o' _ _ _ _ _ _) => [r' st2].
case: r => [rs|x]; case: r' => [rs'|x'] //= H.
have [rs2 [-> F]] : exists rs2, mapM (@new_estimate (List.length inputs)) rs' = Ok rs2 /\
    List.Forall2 (fun r r' => fst r = Some (fst r') /\ snd r' = both_parts (snd r)) rs rs2; last by [].
elim: H => [|[x1 l1] [x2 l2] l l' [z [/= -> [-> ->]]] H [rs2 [E F]]]; first by exists [].
exists ((z, both_parts l1) :: rs2); split; last by constructor.
by cbn [mapM]; rewrite new_estimate_vec E.
Qed.

(** ** shapes *)
Lemma real_prob_shapes St (inputs : list (list C)) (o : opts (fullK (2 * List.length inputs))) (outputs : list (list C)) ws init iv (st : St) :
  inputs = [] \/ (exists l l', In l inputs /\ In l' inputs /\ List.length l <> List.length l') \/
  (exists l e, In l inputs /\ In e outputs /\ List.length e <> List.length l /\ List.length e <> 1%nat) ->
  fst (real_prob o outputs ws init iv st) = Err ValueError.
Proof.
move=> H; unfold real_prob; set n := match inputs with [] => O | line :: _ => List.length line end.
case E: (_ && _); last by [].
move: E => /andP [E1 /forallb_forall E2]; cbn [check bind].
have L l : In l inputs -> List.length l = n by move=> /E2 /Nat.eqb_eq.
suff -> : mapM (new_line n) outputs = Err ValueError by [].
case: H => [H|[[l [l' [Hl [Hl' D]]]]|[l [e [Hl [He [D D1]]]]]]].
- by exfalso; move: E1; rewrite H.
- by case: D; rewrite (L _ Hl) (L _ Hl').
rewrite (L _ Hl) in D; elim: outputs He => [|x xs IH] // [X|I]; cbn [mapM].
- suff -> : new_line n x = Err ValueError by []. clear IH; subst x.
  unfold new_line; rewrite (proj2 (Nat.eqb_neq _ _) D).
  by case: e D D1 => [|c [|c' x]].
- have X : (exists y, new_line n x = Ok y) \/ new_line n x = Err ValueError.
    by unfold new_line; case: (Nat.eqb _ _); [left; eexists|case: x => [|c [|c' x]]; [right|left; eexists|right]].
  by case: X => [[y ->]|->] //; rewrite IH.
Qed.

Lemma real_prob_single St (inputs : list (list C)) (o : opts (fullK (2 * List.length inputs))) (outputs outputs' : list (list C)) ws init iv (st : St) n :
  inputs <> [] -> List.Forall (fun l => List.length l = n) inputs ->
  List.Forall2 (fun e e' => List.length e = n /\ e' = e \/ exists c, e = repeat c n /\ e' = [c]) outputs outputs' ->
  real_prob o outputs' ws init iv st = real_prob o outputs ws init iv st.
Proof.
move=> Hne Hin H.
have Hn : match inputs with [] => O | line :: _ => List.length line end = n.
  by case: inputs Hne Hin {o ws init} => [|l inputs] // _ F; inversion F.
unfold real_prob; rewrite Hn; suff -> : mapM (new_line n) outputs' = mapM (new_line n) outputs by [].
elim: H => [|e e' l l' He H IH] //; cbn [mapM]; rewrite IH; suff -> : new_line n e' = new_line n e by [].
case: He => [[_ ->]|[c [-> ->]]] //; unfold new_line; rewrite repeat_length Nat.eqb_refl.
by case: n {Hin Hn H IH} => [|[|n]].
Qed.
