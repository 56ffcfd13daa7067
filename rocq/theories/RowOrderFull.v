(** The complex kernels do not depend on the order of the rows. *)
From Coq Require Import Reals Lra.
From Coquelicot Require Import Complex.
From mathcomp Require Import all_ssreflect all_algebra.
From Verif Require Import WlseModel WlseProofs CField.
From Verif Require Import Base BaseLemmas Arith MestModel WeightModel RobustModel RobustWeights BiModel SimProofs FullModel SpecFull FullProofs RowOrderProofs.
Set Implicit Arguments.
Unset Strict Implicit.
Unset Printing Implicit Defensive.
Import GRing.Theory.
Local Open Scope ring_scope.

Lemma sum_perm (V : zmodType) (F : nat -> V) s s' : Permutation s s' -> \sum_(i <- s) F i = \sum_(i <- s') F i.
Proof.
elim=> [|x l l' _ IH|x y l|l l' l'' _ -> _ ->] //; first by rewrite !big_cons IH.
by rewrite !big_cons addrCA.
Qed.

Lemma forallb_perm (T : Type) (f : T -> bool) s s' : Permutation s s' -> forallb f s = forallb f s'.
Proof. by elim=> [|x l l' _ IH|x y l|l l' l'' _ -> _ ->] //=; [rewrite IH|rewrite andbCA]. Qed.

Lemma rsum_perm (F : nat -> R) s s' : Permutation s s' -> fold_right Rplus R0 (List.map F s) = fold_right Rplus R0 (List.map F s').
Proof. by elim=> [|x l l' _ IH|x y l|l l' l'' _ -> _ ->] //=; [rewrite IH|ring]. Qed.

Lemma xadd_comm a b : xadd a b = xadd b a.
Proof. by case: a b => [x| | |] [y| | |] //=; congr Fin; ring. Qed.
Lemma xadd_assoc a b c : xadd a (xadd b c) = xadd (xadd a b) c.
Proof. by case: a b c => [x| | |] [y| | |] [z| | |] //=; congr Fin; ring. Qed.

Lemma xsum_perm (F : nat -> ext) s s' : Permutation s s' -> xsum (List.map F s) = xsum (List.map F s').
Proof.
rewrite /xsum => P; move: (Fin R0); elim: P => [|x l l' _ IH|x y l|l l' l'' _ IH _ IH'] a //=; last by rewrite IH.
by rewrite -!xadd_assoc (xadd_comm (F y)).
Qed.

Lemma nth_list (T : Type) (d : T) l i : seq.nth d l i = List.nth i l d.
Proof. by elim: l i => [|x l IH] [|i] //=. Qed.

Section Kernel.
Variable q : nat.

(** the matrix and the right-hand side as sums over the rows *)
Definition wval (w : option (nat -> C)) (i : nat) : C := match w with Some f => f i | None => 1 end.
Definition gramW (b : nat -> 'rV[C]_q) (w : option (nat -> C)) (ids : list nat) : 'M[C]_q := \sum_(i <- ids) (wval w i *: ((map_mx cjC (b i))^T *m b i)).
Definition rhsW (e : nat -> C) (b : nat -> 'rV[C]_q) (w : option (nat -> C)) (ids : list nat) : 'cV[C]_q := \sum_(i <- ids) (wval w i * e i *: (map_mx cjC (b i))^T).

Lemma weights_nth (w : nat -> C) ids (i : 'I_(size ids)) :
  (if size (List.map w ids) == (S O) then seq.nth 0 (List.map w ids) 0 else seq.nth 0 (List.map w ids) i) = w (seq.nth O ids i).
Proof.
rewrite -[List.map w ids]/([seq w x | x <- ids]) size_map; case: ifP => [/eqP E|_]; last by rewrite (nth_map O).
rewrite (nth_map O) ?E //; congr (w (seq.nth _ _ _)); case: i => i /=; rewrite E; by case: i.
Qed.

Lemma dotdiag_nth p (w : option (nat -> C)) ids (x : 'M[C]_(size ids, p)) i j :
  dotdiag (weights (size ids) (wmap w ids)) x i j = wval w (seq.nth O ids i) * x i j.
Proof.
case: w => [w|] /=; last by rewrite mul1r.
by rewrite mul_diag_mx !mxE weights_nth.
Qed.

Lemma gram_sum b w ids : normal cjC (rows (size ids) (List.map b ids)) (weights (size ids) (wmap w ids)) = gramW b w ids.
Proof.
rewrite /gramW (big_nth O) big_mkord; apply/matrixP => i j; rewrite summxE [LHS]mxE; apply: eq_bigr => k _.
rewrite dotdiag_nth !mxE big_ord1 !mxE !(nth_map O) // mulrCA; congr (_ * _).
Qed.

Lemma rhs_sum e b w ids : rhs cjC (\col_(i < size ids) seq.nth 0 (List.map e ids) i) (rows (size ids) (List.map b ids)) (weights (size ids) (wmap w ids)) = rhsW e b w ids.
Proof.
rewrite /rhsW (big_nth O) big_mkord; apply/matrixP => i j; rewrite summxE [LHS]mxE; apply: eq_bigr => k _.
rewrite dotdiag_nth !mxE !(nth_map O) // mulrC; congr (_ * cjC _); by rewrite ord1.
Qed.

Lemma gram_perm b w s s' : Permutation s s' -> gramW b w s = gramW b w s'.
Proof. exact: sum_perm. Qed.
Lemma rhs_perm e b w s s' : Permutation s s' -> rhsW e b w s = rhsW e b w s'.
Proof. exact: sum_perm. Qed.

Definition finite (x : ext) : bool := match x with Fin _ => true | _ => false end.
Definition wfin (W : option (nat -> ext)) : option (nat -> C) := option_map (fun f i => RtoC (weight_r (f i))) W.

Lemma weights_c_map W ids : weights_c (wmap W ids) =
  if (match W with Some f => forallb (fun i => finite (f i)) ids | None => true end) then Ok (wmap (wfin W) ids) else Err ValueError.
Proof.
case: W => [f|] //=.
have -> : mapM weight_c (List.map f ids) = if forallb (fun i => finite (f i)) ids then Ok (List.map (fun i => RtoC (weight_r (f i))) ids) else Err ValueError.
  elim: ids => [|i ids IH] //=; case E : (f i) => [x| | |] //=; rewrite IH; by case: forallb.
by case: forallb.
Qed.

Lemma wlse_rows_sum e b w ids : wlse_rows cjC (List.map e ids) (List.map b ids) (wmap w ids) =
  if gramW b w ids \in unitmx then Some (invmx (gramW b w ids) *m rhsW e b w ids) else None.
Proof. by rewrite (@wlse_rows_n _ _ (size ids)) ?size_map // /wlse gram_sum rhs_sum. Qed.

Lemma full_wlse_order (e : nat -> C) (b : nat -> 'rV[C]_q) W ids ids' : Permutation ids ids' ->
  full_wlse (List.map e ids') (List.map b ids') (wmap W ids') = full_wlse (List.map e ids) (List.map b ids) (wmap W ids).
Proof.
move=> P; rewrite /full_wlse !weights_c_map.
have -> : (match W with Some f => forallb (fun i => finite (f i)) ids' | None => true end) = (match W with Some f => forallb (fun i => finite (f i)) ids | None => true end).
  by case: W => // f; rewrite (forallb_perm _ P).
case: (match W with Some f => _ | None => true end) => //=.
by rewrite !wlse_rows_sum (gram_perm _ _ P) (rhs_perm _ _ _ P).
Qed.

Definition resid1 (e : C) (b : 'rV[C]_q) (z : 'cV[C]_q) : option C := Some (e - (b *m z) 0 0).

Lemma full_resid_rows (e : nat -> C) (b : nat -> 'rV[C]_q) ids z :
  full_resid (List.map e ids) (List.map b ids) z = List.map (fun i => resid1 (e i) (b i) z) ids.
Proof. by rewrite /full_resid combine_maps List.map_map. Qed.

Lemma weights_r_map W ids : weights_r (List.length ids) (wmap W ids) = List.map (fun i => match W with Some f => weight_r (f i) | None => R1 end) ids.
Proof.
case: W => [f|] /=; last by elim: ids => //= i ids ->.
case: ids => [|i [|j ids]] //=; by rewrite List.map_map.
Qed.

Lemma full_wres_order (r : nat -> option C) W ids ids' : Permutation ids ids' ->
  full_wres (List.map r ids') (wmap W ids') = full_wres (List.map r ids) (wmap W ids).
Proof.
move=> P; rewrite /full_wres !List.map_length !weights_r_map !combine_maps !List.map_map; congr Rabs.
by rewrite (rsum_perm _ P).
Qed.

(** the quadratic form of one row *)
Definition quad1 (A : 'M[C]_q) (r : 'rV[C]_q) : ext := Fin (Re (\sum_j (invmx A *m (map_mx cjC r)^T) j 0 * r^T j 0)).

Lemma full_quad_rows (b : nat -> 'rV[C]_q) W ids : full_quad (List.map b ids) (wmap W ids) =
  if (match W with Some f => forallb (fun i => finite (f i)) ids | None => true end) then
    (if gramW b (wfin W) ids \in unitmx then Ok (List.map (fun i => quad1 (gramW b (wfin W) ids) (b i)) ids) else Err LinAlgError)
  else Err ValueError.
Proof.
rewrite (@full_quad_n _ (size ids)) ?size_map //.
have -> : (match wmap W ids with None => true | Some w => (size w == size ids) || (size w == (S O)) end) = true.
  by case: W => [f|] //=; rewrite -[List.map f ids]/([seq f x | x <- ids]) size_map eqxx.
rewrite weights_c_map; cbn [check bind]; case: (match W with Some f => _ | None => true end); cbn [bind]; last by [].
cbv zeta; rewrite gram_sum; case: ifP => // U; apply: (f_equal Ok).
apply: (@eq_from_nth _ (Fin R0)); first by rewrite size_map size_enum_ord; symmetry; exact: size_map.
move=> i; rewrite size_map size_enum_ord => Hi.
rewrite (nth_map (Ordinal Hi)) ?size_enum_ord // [RHS](nth_map O) // /quad1.
apply: (f_equal Fin); apply: (f_equal Re); apply: eq_bigr => j _.
set k := seq.nth _ _ _; have Ek : k = i :> nat by rewrite /k nth_enum_ord.
rewrite !mxE (nth_map O) ?Ek //; congr (_ * _); apply: eq_bigr => l _; rewrite !mxE (nth_map O) ?Ek //.
Qed.

(** ** The weights of the library *)
Definition rel (ids ids' : list nat) (s s' : option (wstate (fullW q))) : Prop :=
  match s, s' with
  | None, None => True
  | Some (SThomson s), Some (SThomson s') => s' = s
  | Some (SBi p), Some (SBi p') => bi_it p' = bi_it p /\ bi_trace p' = bi_trace p /\
      exists W H, bi_weight p = wmap W ids /\ bi_weight p' = wmap W ids' /\ bi_hat p = wmap H ids /\ bi_hat p' = wmap H ids'
  | _, _ => False
  end.

Lemma map2_map (X Y Z : Type) (f : X -> Y -> Z) (g : nat -> X) (h : nat -> Y) ids :
  map2 f (List.map g ids) (List.map h ids) = List.map (fun i => f (g i) (h i)) ids.
Proof. by rewrite /map2 combine_maps List.map_map. Qed.

Lemma bi_order lower khi (b : nat -> 'rV[C]_q) ids ids' p p' (w : nat -> ext) : Permutation ids ids' ->
  rel ids ids' (Some (SBi (fullW q) p)) (Some (SBi (fullW q) p')) ->
  (exists x, w_bi _ (fullW q) lower khi (List.map b ids) p (List.map w ids) = Err x /\ w_bi _ (fullW q) lower khi (List.map b ids') p' (List.map w ids') = Err x) \/
  (exists bw tr hat, w_bi _ (fullW q) lower khi (List.map b ids) p (List.map w ids) = Ok (List.map bw ids, tr, List.map hat ids) /\
    w_bi _ (fullW q) lower khi (List.map b ids') p' (List.map w ids') = Ok (List.map bw ids', tr, List.map hat ids')).
Proof.
move=> P [_ [Et [W [H [E1 [E1' [E2 E2']]]]]]]; rewrite /= /bi_formula E1 E1' E2 E2' Et !full_quad_rows.
have -> : (match W with Some f => forallb (fun i => finite (f i)) ids' | None => true end) = (match W with Some f => forallb (fun i => finite (f i)) ids | None => true end).
  by case: W {E1 E1'} => // f; rewrite (forallb_perm _ P).
case: (match W with Some f => _ | None => true end); last by left; exists ValueError.
rewrite -(gram_perm _ _ P); case: ifP => U; last by left; exists LinAlgError.
right; cbn [bind].
set Q := fun i => quad1 (gramW b (wfin W) ids) (b i).
pose h i := xmul (match W with Some f => f i | None => Fin R1 end) (Q i).
pose y i := xdiv (xmul (bi_trace p) (h i)) (Fin (INR q)).
pose hat i := hat_next lower khi (match H with Some f => f i | None => Fin R1 end) (y i).
exists (fun i => xmul (w i) (hat i)), (xsum (List.map (fun i => xmul (w i) (hat i)) ids)), hat.
have Eh s : (match wmap W s with None => List.map (xmul (Fin 1)) (List.map Q s) | Some pw => map2 xmul pw (List.map Q s) end) = List.map h s.
  by rewrite /h; case: (W) => [f|] /=; rewrite ?map2_map ?List.map_map.
have Ehat s : (match wmap H s with None => List.map (hat_next lower khi (Fin 1)) (List.map y s) | Some ph => map2 (hat_next lower khi) ph (List.map y s) end) = List.map hat s.
  by rewrite /hat; case: (H) => [f|] /=; rewrite ?map2_map ?List.map_map.
have X s : List.map (fun x => xdiv (xmul (bi_trace p) x) (Fin (INR q))) (List.map h s) = List.map y s by rewrite List.map_map.
split; cbv zeta; rewrite Eh X Ehat map2_map //.
by rewrite (xsum_perm _ P).
Qed.

Lemma call_order w : of_library w = true -> worder (k := fullK q) (fun _ => True) (call (fullW q) w).
Proof.
move=> SW; exists (fun s s' h h' => forall i, In i (WeightModel.ids w) -> rel s s' (h i) (h' i)).
move=> e b; elim: w SW => [f|alpha|id xi|id inner IH lower khi] SW r it s s' J iv iv' h h' HB P M M' R; cbn [of_library] in SW; try discriminate SW; cbn [call].
- have PR : Permutation (List.map r s) (List.map r s') by apply: Permutation_map.
  exists (Ok (Some (fun i => xmin1 (xdiv (xmul (Fin alpha) (of_opt (mad_scale (vnorm (List.map r s))))) (of_opt (option_map Cmod (r i))))))).
  cbn [fst snd rmap wmap option_map]; split; first by rewrite /= /vnorm !List.map_map.
  split; first by rewrite /= (mad_perm _ _ PR) /vnorm !List.map_map.
  by [].
- have PR : Permutation (List.map r s) (List.map r s') by apply: Permutation_map.
  have PL : List.length s' = List.length s by rewrite (Permutation_length P).
  have T scale x t : List.length t = List.length s -> w_thomson _ (fullW q) x scale (List.map r t)
    = List.map (fun i => expexp (xdiv (of_opt (option_map Cmod (r i))) (of_opt scale)) (Fin x)) t.
    by move=> _; rewrite /= /thomson /vnorm !List.map_map.
  rewrite !List.map_length PL; case: it R => [|it] R.
  + eexists (Ok (Some (fun i => expexp (xdiv (of_opt (option_map Cmod (r i))) (of_opt (mad_scale (vnorm (List.map r s))))) (Fin _)))).
    cbn [fst snd rmap wmap option_map]; split; first by apply: (f_equal Ok); apply: (f_equal Some); rewrite T //.
    split; first by apply: (f_equal Ok); apply: (f_equal Some); rewrite T //= (mad_perm _ _ PR).
    move=> i; cbn [WeightModel.ids]; case=> [<-|] //=; rewrite /hset Nat.eqb_refl /= (mad_perm _ _ PR) //.
  + case: R => [|R] //; have := R id; cbn [WeightModel.ids]; move/(_ (or_introl erefl)).
    case E : (h id) => [[sc|p]|]; case E' : (h' id) => [[sc'|p']|] //; cbn [rel]; try by exists (Err KeyError).
    move=> ->; eexists (Ok (Some (fun i => expexp (xdiv (of_opt (option_map Cmod (r i))) (of_opt sc)) (Fin _)))).
    cbn [fst snd rmap wmap option_map]; split; first by apply: (f_equal Ok); apply: (f_equal Some); rewrite T.
    by split; first by apply: (f_equal Ok); apply: (f_equal Some); rewrite T.
- set g := (match it with O => _ | _ => h end); set g' := (match it with O => _ | _ => h' end).
  have R1 : it = O \/ (forall i, In i (WeightModel.ids inner) -> rel s s' (g i) (g' i)).
    case: it R @g @g' => [|it] R g g'; [by left|right]; case: R => // R i Hi; apply: R; by right.
  have R2 : rel s s' (g id) (g' id).
    case: it R @g @g' {R1} => [|it] R g g'; last by (case: R => // R; apply: R; left).
    rewrite /g /g' /hset Nat.eqb_refl !List.map_length; split=> //; split; first by rewrite (Permutation_length P).
    by exists None, None.
  case E : (g id) R2 => [[sc|p]|]; case E' : (g' id) => [[sc'|p']|] // R2; try by exists (Err AssertionError).
  have [Eit _] := R2; rewrite Eit; case: Z.eqb; last by exists (Err AssertionError).
  have [rw [H1 [H2 H3]]] := IH SW r it s s' J iv iv' g g' HB P M M' R1.
  move: H1 H2 H3; case: (call _ inner it (List.map r s) _ _ _ g) => r1 h1; case: (call _ inner it (List.map r s') _ _ _ g') => r2 h2; cbn [fst snd] => -> -> R3.
  case: rw R3 => [[w1|]|x] R3; cbn [rmap bind wmap option_map of_option]; try by exists (Err TypeError). 2: by exists (Err x).
  rewrite (marks_set w1 s iv J _ M) (marks_set w1 s' iv' J _ M'); cbn [bind].
  case: (@bi_order lower khi b s s' p p' (fun i => if J i then k_zero (fullK q) else w1 i) P R2) => [[x [-> ->]]|[bw [tr [hat [-> ->]]]]]; first by exists (Err x).
  exists (Ok (Some bw)); cbn [fst snd rmap wmap option_map]; split=> //; split=> // i; cbn [WeightModel.ids] => Hi.
  rewrite /hset; case EI : (Nat.eqb i id); first by split=> //; split=> //; exists (Some bw), (Some hat).
  case: Hi => [Hi|Hi]; first by move: EI; rewrite Hi Nat.eqb_refl.
  exact: R3.
Qed.

Lemma full_order o p (b b' : list 'rV[C]_q) ws outputs outputs' init iv iv' st st' :
  Permutation p (List.seq 0 (List.length b)) -> reordered p b b' -> List.Forall2 (reordered p) outputs outputs' ->
  List.Forall (fun e => List.length e = List.length b) outputs -> same_rows_given p iv iv' ->
  List.Forall (fun w => match w with Some w => of_library w = true | None => True end) ws ->
  match fst (transfer_function (k := fullK q) o outputs b (weightings (fullW q) ws) init iv st),
        fst (transfer_function (k := fullK q) o outputs' b' (weightings (fullW q) ws) init iv' st') with
  | Ok rs, Ok rs' => List.Forall2 (fun r r' => fst r' = fst r /\ same_rows p (snd r) (snd r')) rs rs'
  | Err x, Err x' => x' = x
  | _, _ => False
  end.
Proof.
move=> P RB RO L RI Ws.
apply: (@transfer_order (fullK q) (heap (fullW q)) (fun _ => True) (0 : C) (0 : 'rV[C]_q) resid1) => //.
- move=> e b0 W ids ids' _; exact: full_wlse_order.
- move=> e b0 ids z _; exact: full_resid_rows.
- exact: full_wres_order.
- exact/List.Forall_forall.
- rewrite /weightings; apply/List.Forall_map; apply: (List.Forall_impl _ _ Ws) => -[w|] //; exact: call_order.
Qed.
End Kernel.
