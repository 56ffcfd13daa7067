(** Proofs about the estimation over the complex numbers. *)
From Coq Require Import Reals Lra.
From Coquelicot Require Import Complex.
From mathcomp Require Import all_ssreflect all_algebra.
From Verif Require Import WlseModel WlseProofs CField.
From Verif Require Import Base Arith MestModel WeightModel RobustModel RobustWeights BiModel SimProofs FullModel SpecFull.
Set Implicit Arguments.
Unset Strict Implicit.
Unset Printing Implicit Defensive.
Import GRing.Theory.
Local Open Scope ring_scope.

Section Field.
Variables (F : fieldType) (cj : {rmorphism F -> F}).

Lemma wlse_affine n q (x : 'cV[F]_n) (y : 'M[F]_(n, q)) w c z0 (M : 'M[F]_q) : M \in unitmx ->
  wlse cj (c *: x + y *m z0) (y *m M) w = omap (fun z => invmx M *m (c *: z + z0)) (wlse cj x y w).
Proof.
move=> UM; rewrite wlse_change // /wlse; case: ifP => //= U; congr (Some (_ *m _)).
have R : rhs cj (c *: x + y *m z0) y w = c *: rhs cj x y w + normal cj y w *m z0.
  by rewrite /rhs dotdiag_add dotdiag_scale dotdiag_mul mulmxDr -scalemxAr mulmxA.
by rewrite R mulmxDr -scalemxAr mulKmx.
Qed.

Lemma unitmx_herm' q (M : 'M[F]_q) : M \in unitmx -> herm cj M \in unitmx.
Proof. by move=> U; rewrite /herm unitmx_tr map_unitmx. Qed.

(** the diagonal of the hat matrix does not depend on the basis of the inputs *)
Lemma hat_change n q (y : 'M[F]_(n, q)) w (M : 'M[F]_q) i : M \in unitmx -> normal cj y w \in unitmx ->
  \sum_j (invmx (normal cj (y *m M) w) *m herm cj (y *m M)) j i * (y *m M)^T j i = \sum_j (invmx (normal cj y w) *m herm cj y) j i * y^T j i.
Proof.
move=> UM U.
have E (z : 'M[F]_(n, q)) (A : 'M[F]_q) : \sum_j (invmx A *m herm cj z) j i * z^T j i = (z *m (invmx A *m herm cj z)) i i.
  by rewrite [RHS]mxE; apply: eq_bigr => j _; rewrite [z^T _ _]mxE mulrC.
have N : normal cj (y *m M) w = herm cj M *m normal cj y w *m M by rewrite /normal herm_mul dotdiag_mul !mulmxA.
have UH := unitmx_herm' UM.
rewrite !E N herm_mul; congr (fun_of_matrix _ i i).
have V : invmx (herm cj M *m normal cj y w *m M) = invmx M *m (invmx (normal cj y w) *m invmx (herm cj M)).
  move: (herm cj M) UH (normal cj y w) U {N} => K UH A U.
  have UU : K *m A *m M \in unitmx by rewrite !unitmx_mul UH U UM.
  apply: (can_inj (mulKmx UU)); rewrite mulmxV // -!mulmxA (mulKVmx UM) (mulKVmx U) mulmxV //.
rewrite V -!mulmxA (mulKVmx UM); congr (_ *m (_ *m _)); by rewrite mulKmx.
Qed.
Lemma unit_change n q (y : 'M[F]_(n, q)) w (M : 'M[F]_q) : M \in unitmx -> (normal cj (y *m M) w \in unitmx) = (normal cj y w \in unitmx).
Proof.
move=> UM.
have -> : normal cj (y *m M) w = herm cj M *m normal cj y w *m M by rewrite /normal herm_mul dotdiag_mul !mulmxA.
by rewrite !unitmx_mul UM (unitmx_herm' UM) andbT.
Qed.

Lemma wlse_rows_n n q (e : list F) (b : list 'rV[F]_q) w : size e = n ->
  wlse_rows cj e b w = wlse cj (\col_(i < n) seq.nth 0 e i) (rows n b) (weights n w).
Proof. by move=> <-. Qed.
End Field.

Section Change.
Variables (q : nat) (c : C) (M : 'M[C]_q).
Hypotheses (Hc : c <> RtoC 0) (UM : M \in unitmx).
Let fb (r : 'rV[C]_q) : 'rV[C]_q := r *m M.
Let fr : option C -> option C := option_map (Cmult c).
Let fe (z0 : 'cV[C]_q) (p : C * 'rV[C]_q) : C := c * p.1 + (p.2 *m z0) 0 0.
Let fz (z0 z : 'cV[C]_q) : 'cV[C]_q := invmx M *m (c *: z + z0).
Let g (x : R) : R := Rmult (Rmult (Cmod c) (Cmod c)) x.

Lemma rows_change n (l : list (C * 'rV[C]_q)) : size l = n -> rows n (List.map fb (List.map snd l)) = rows n (List.map snd l) *m M.
Proof.
move=> SZ; apply/matrixP => i j; rewrite !mxE.
have Hi : is_true (leq (S i) (size l)) by rewrite SZ.
rewrite (nth_map 0) ?size_map // /fb [LHS]mxE; apply: eq_bigr => k _; by rewrite !mxE.
Qed.

Lemma wlse_change_rows z0 l w : wlse_rows cjC (List.map (fe z0) l) (List.map fb (List.map snd l)) w
  = omap (fz z0) (wlse_rows cjC (List.map fst l) (List.map snd l) w).
Proof.
rewrite (@wlse_rows_n _ _ (size l)) ?size_map // (@wlse_rows_n _ _ (size l)) ?size_map // rows_change //.
rewrite -wlse_affine //; congr wlse; apply/matrixP => i j; rewrite !mxE ord1.
rewrite (nth_map (0, 0)) // (nth_map (0, 0)) // /fe; congr (_ + _); rewrite mxE; apply: eq_bigr => k _; by rewrite !mxE (nth_map (0, 0)).
Qed.

Lemma combine_maps (X Y Z : Type) (f : X -> Y) (h : X -> Z) l : combine (List.map f l) (List.map h l) = List.map (fun x => (f x, h x)) l.
Proof. by elim: l => //= x l ->. Qed.

Lemma resid_change z0 l z : full_resid (List.map (fe z0) l) (List.map fb (List.map snd l)) (fz z0 z)
  = List.map fr (full_resid (List.map fst l) (List.map snd l) z).
Proof.
rewrite /full_resid List.map_map !combine_maps !List.map_map; apply: List.map_ext => -[x r] /=; congr Some.
rewrite /fe /fz /fb /= mulmxA mulmxK // mulmxDr -scalemxAr !mxE -[Cmult c _]/(c * _) mulrBr; by rewrite opprD addrACA subrr addr0.
Qed.

Lemma good_change z0 : good (k := fullK q) fr fb (fe z0) (fz z0).
Proof.
split=> [l w|l z]; last exact: resid_change.
rewrite /= /full_wlse; case: (weights_c w) => [w'|x] //=; rewrite wlse_change_rows; by case: (wlse_rows _ _ _ _).
Qed.

Lemma square_fr r : square (fr r) = g (square r).
Proof. case: r => [z|] /=; rewrite /g; [rewrite Cmod_mult; ring|ring]. Qed.

Lemma wres_change r w : full_wres (List.map fr r) w = g (full_wres r w).
Proof.
rewrite /full_wres List.map_length; move: (weights_r _ w) => ws.
have -> : fold_right Rplus R0 (List.map (fun p => Rmult p.1 (square p.2)) (combine ws (List.map fr r)))
  = g (fold_right Rplus R0 (List.map (fun p => Rmult p.1 (square p.2)) (combine ws r))).
  elim: ws r => [|x ws IH] [|a r] /=; rewrite /g; try ring; rewrite IH square_fr /g; ring.
rewrite /g Rabs_mult; congr Rmult; rewrite Rabs_pos_eq //; have := Cmod_ge_0 c; nra.
Qed.

Lemma conv_change tol p cur : converged (k := fullK q) tol (option_map g p) (g cur) = converged (k := fullK q) tol p cur.
Proof.
have P : Rlt R0 (Rmult (Cmod c) (Cmod c)) by have := (proj1 (Cmod_gt_0 c) Hc); nra.
case: p => //= p; rewrite /Reqb /g.
case: (Req_EM_T p 0) => [E|N]; case: (Req_EM_T _ 0) => [E'|N'] //.
- by exfalso; apply: N'; rewrite E; ring.
- by exfalso; case: (Rmult_integral _ _ E') => X; [apply: (Rlt_not_eq _ _ P)|].
- congr Rltb; congr Rabs; field; split=> //; have := (proj1 (Cmod_gt_0 c) Hc); lra.
Qed.

Lemma full_quad_n n b w : size b = n -> full_quad b w =
  bind (check (match w with None => true | Some w => (size w == n) || (size w == 1%N) end) ValueError) (fun _ =>
  bind (weights_c w) (fun w =>
  let y : 'M[C]_(n, q) := rows n b in
  let A := normal cjC y (weights n w) in
  if A \in unitmx then Ok [seq Fin (Re (\sum_j (invmx A *m herm cjC y) j i * y^T j i)) | i <- fintype.enum 'I_n]
  else Err LinAlgError)).
Proof. by move=> <-. Qed.

Lemma quad_change b w : full_quad (List.map fb b) w = full_quad b w.
Proof.
rewrite (@full_quad_n (size b)) ?size_map // (@full_quad_n (size b)) //.
case: (check _ _) => //= _; case: (weights_c w) => //= w'.
have -> : rows (size b) (List.map fb b) = rows (size b) b *m M.
  apply/matrixP => i j; rewrite !mxE (nth_map 0) // /fb [LHS]mxE; apply: eq_bigr => k _; by rewrite !mxE.
rewrite unit_change //; case: ifP => // U; congr Ok; apply: eq_map => i; by rewrite hat_change.
Qed.

Definition rs (s s' : wstate (fullW q)) : Prop :=
  match s, s' with
  | SThomson s, SThomson s' => s' = option_map (Rmult (Cmod c)) s
  | SBi p, SBi p' => p' = p
  | _, _ => False
  end.
Definition RS (h h' : heap (fullW q)) : Prop := forall i,
  match h i, h' i with
  | None, None => True
  | Some s, Some s' => rs s s'
  | _, _ => False
  end.

Lemma RS_fresh : RS (fresh (fullW q)) (fresh (fullW q)).
Proof. by []. Qed.

Lemma RS_set h h' i s s' : RS h h' -> rs s s' -> RS (hset (fullW q) h i s) (hset (fullW q) h' i s').
Proof. move=> R S j; rewrite /hset; case: Nat.eqb => //; exact: R. Qed.

Lemma huber_scaled alpha m r :
  w_huber _ (fullW q) alpha (option_map (Rmult (Cmod c)) m) (List.map fr r) = w_huber _ (fullW q) alpha m r.
Proof.
have Pc := proj1 (Cmod_gt_0 c) Hc.
rewrite /= /vnorm !List.map_map; apply: List.map_ext => -[z|] /=; last by case: m.
rewrite Cmod_mult; case: m => [s|] //=.
have -> : Rmult alpha (Rmult (Cmod c) s) = Rmult (Cmod c) (Rmult alpha s) by ring.
congr xmin1; exact: xdiv_scale.
Qed.

Lemma thomson_scaled xi m r :
  w_thomson _ (fullW q) xi (option_map (Rmult (Cmod c)) m) (List.map fr r) = w_thomson _ (fullW q) xi m r.
Proof.
have Pc := proj1 (Cmod_gt_0 c) Hc.
rewrite /= /thomson List.map_length /vnorm !List.map_map; apply: List.map_ext => -[z|] /=; last by case: m.
rewrite Cmod_mult; case: m => [s|] //=; congr expexp; exact: xdiv_scale.
Qed.

Lemma mad_scaled r : w_mad _ (fullW q) (List.map fr r) = option_map (Rmult (Cmod c)) (w_mad _ (fullW q) r).
Proof. exact: mad_rescale. Qed.

Lemma bi_change lower khi b p w : w_bi _ (fullW q) lower khi (List.map fb b) p w = w_bi _ (fullW q) lower khi b p w.
Proof. by rewrite /= /bi_formula quad_change. Qed.

Lemma call_good w : of_library w = true -> wgood (k := fullK q) RS fr fb (call (fullW q) w).
Proof.
elim: w => [f|alpha|id xi|id inner IH lower khi] SW f1 f2 G l it r iv st st' R; cbn [of_library] in SW; try discriminate SW; cbn [call].
- by split=> //; cbn [fst rmap]; rewrite mad_scaled huber_scaled.
- rewrite List.map_length; case: it => [|it].
  + split; cbn [fst snd rmap]; rewrite mad_scaled; first by rewrite thomson_scaled.
    exact: RS_set.
  + move: (R id); case: (st id) => [[s|p]|]; case: (st' id) => [[s'|p']|] //; try by [].
    by move=> ->; split=> //; cbn [fst rmap]; rewrite thomson_scaled.
- set h := (match it with O => _ | _ => st end); set h' := (match it with O => _ | _ => st' end).
  have R1 : RS h h'.
  { subst h h'; destruct it; [|exact R]. apply: RS_set; [exact R|]. cbn [rs]; by rewrite !List.map_length. }
  move: (R1 id); case: (h id) => [[s|p]|]; case: (h' id) => [[s'|p']|] // E; try by split.
  rewrite /rs in E; subst p'; case: Z.eqb; last by split.
  case: (IH SW f1 f2 G l it r iv h h' R1) => E1 E2.
  move: E1 E2; case: (call _ inner it r _ _ _ h) => r1 h1; case: (call _ inner it _ _ _ _ h') => r2 h2; cbn [fst snd] => -> R2.
  case: r1 => [w1|x]; cbn [rmap bind]; last by split.
  case: (of_option TypeError w1) => [w2|x]; cbn [bind]; last by split.
  case: (set_at w2 iv _) => [w3|x]; cbn [bind]; last by split.
  rewrite bi_change; case: (w_bi _ _ _ _ _ _ _) => [[[biw tr] hat]|x]; split=> //.
  exact: RS_set.
Qed.

(** one output, with the pairs the simulation works with *)
Definition pairs (bs : list 'rV[C]_q) (e : list C) : list (C * 'rV[C]_q) := combine e bs.

Lemma pairs_snd bs e : List.length e = List.length bs -> List.map snd (pairs bs e) = bs.
Proof. by rewrite /pairs; elim: e bs => [|x e IH] [|b bs] //= [/IH ->]. Qed.
Lemma pairs_fst bs e : List.length e = List.length bs -> List.map fst (pairs bs e) = e.
Proof. by rewrite /pairs; elim: e bs => [|x e IH] [|b bs] //= [/IH ->]. Qed.

Lemma full_change o (outputs : list (list C)) (bs : list ('rV[C]_q)) ws iv (zs : list 'cV[C]_q) :
  List.length zs = List.length outputs ->
  List.Forall (fun e => List.length e = List.length bs) outputs ->
  List.Forall (fun w => match w with Some w => of_library w = true | None => True end) ws ->
  fst (transfer_function (k := fullK q) o (List.map (fun p => changed_output c bs (snd p) (fst p)) (combine outputs zs)) (List.map (changed_row M) bs)
         (weightings (fullW q) ws) None iv (fresh (fullW q)))
  = rmap (fun rs => List.map (fun p => (option_map (changed_estimate c M (fst p)) (fst (snd p)), snd (snd p))) (combine zs rs))
      (fst (transfer_function (k := fullK q) o outputs bs (weightings (fullW q) ws) None iv (fresh (fullW q)))).
Proof.
move=> L F Ws.
pose outs : list (list (C * 'rV[C]_q) * ((C * 'rV[C]_q -> C) * ('cV[C]_q -> 'cV[C]_q))) :=
  List.map (fun p => (pairs bs (fst p), (fe (snd p), fz (snd p)))) (combine outputs zs).
have W : List.Forall (fun ow => match ow with Some wf => wgood (k := fullK q) RS fr fb wf | None => True end) (weightings (fullW q) ws).
  rewrite /weightings; apply/List.Forall_map; apply: (List.Forall_impl _ _ Ws) => -[w|] //; exact: call_good.
have O : List.Forall (fun p => List.map snd (fst p) = bs /\ good (k := fullK q) fr fb (fst (snd p)) (snd (snd p))) outs.
  apply/List.Forall_map; apply/List.Forall_forall => -[e z] H; split; last exact: good_change.
  apply: pairs_snd; move/List.Forall_forall: F; apply; exact: (List.in_combine_l _ _ _ _ H).
have [T _] := @transfer_sim (fullK q) (heap (fullW q)) RS fr g fb erefl wres_change conv_change o _ W outs bs iv _ _ O RS_fresh.
have E1 : List.map (fun p => List.map fst (fst p)) outs = outputs.
  rewrite /outs List.map_map; elim: (outputs) (zs) L F => [|e os IH] [|z zs'] //= [L] F; inversion F; subst; by rewrite pairs_fst // IH.
have E2 : List.map (fun p => List.map (fst (snd p)) (fst p)) outs = List.map (fun p => changed_output c bs (snd p) (fst p)) (combine outputs zs).
  by rewrite /outs List.map_map.
move: T; rewrite E1 E2 => ->; case: (fst _) => //= rs'; congr Ok.
rewrite /outs; elim: (outputs) (zs) rs' L {F O E1 E2} => [|e os IH] [|z zs'] [|r rs'] //= [L]; by rewrite IH.
Qed.
End Change.
