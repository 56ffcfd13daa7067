(** Conjugate data: the estimation with the other sign convention of the Fourier
    transform. *)
From Coq Require Import Reals Lra.
From Coquelicot Require Import Complex.
From mathcomp Require Import all_ssreflect all_algebra.
From Verif Require Import WlseModel WlseProofs CField.
From Verif Require Import Base Arith MestModel WeightModel RobustModel RobustWeights BiModel SimProofs FullModel SpecFull FullProofs.
Set Implicit Arguments.
Unset Strict Implicit.
Unset Printing Implicit Defensive.
Import GRing.Theory.
Local Open Scope ring_scope.

Lemma cj_real (x : R) : cjC (RtoC x) = RtoC x.
Proof. by apply: injective_projections => /=; ring. Qed.
Lemma Cmod_cj (z : C) : Cmod (cjC z) = Cmod z.
Proof. rewrite /Cmod; congr sqrt; case: z => x y /=; ring. Qed.
Lemma Re_cj (z : C) : Re (cjC z) = Re z.
Proof. by []. Qed.

Section Conj.
Variable q : nat.
Let fb (r : 'rV[C]_q) : 'rV[C]_q := map_mx cjC r.
Let fr : option C -> option C := option_map cjC.
Let fe (p : C * 'rV[C]_q) : C := cjC p.1.
Let fz (z : 'cV[C]_q) : 'cV[C]_q := map_mx cjC z.

Definition real_weights (w : option (list C)) : Prop := match w with Some l => List.Forall (fun x => cjC x = x) l | None => True end.

Lemma weights_c_real w w' : weights_c w = Ok w' -> real_weights w'.
Proof.
case: w => [l|] /=; last by case=> <-.
case E : (mapM weight_c l) => [m|x] //= [<-] /=; elim: l m E => [|a l IH] m /=; first by case=> <-.
case: a => [x| | |] //=; case E : (mapM weight_c l) => [m'|] //= [<-]; constructor; [exact: cj_real|exact: IH].
Qed.

Lemma weights_real n w : real_weights w -> omap (map_mx cjC) (weights n w) = weights n w.
Proof.
case: w => [l|] //= F; congr Some; apply/matrixP => i j; rewrite !mxE.
have X k : cjC (seq.nth 0 l k) = seq.nth 0 l k.
  elim: l k F => [|x l IH] [|k] F /=; try exact: rmorph0; inversion F; subst; [by []|exact: IH].
by case: ifP.
Qed.

Lemma conj_rows n (b : list 'rV[C]_q) : size b = n -> rows n (List.map fb b) = map_mx cjC (rows n b).
Proof.
move=> SZ; apply/matrixP => i j; rewrite !mxE.
have Hi : is_true (leq (S i) (size b)) by rewrite SZ.
by rewrite (nth_map 0) // /fb mxE.
Qed.

Lemma herm_conj m n (A : 'M[C]_(m, n)) : herm cjC (map_mx cjC A) = map_mx cjC (herm cjC A).
Proof. by apply/matrixP => i j; rewrite !mxE. Qed.

Lemma dotdiag_conj n p (w : option 'rV[C]_n) (x : 'M[C]_(n, p)) : omap (map_mx cjC) w = w -> dotdiag w (map_mx cjC x) = map_mx cjC (dotdiag w x).
Proof. by case: w => [w|] //= [E]; rewrite map_mxM map_diag_mx E. Qed.

Lemma normal_conj n (y : 'M[C]_(n, q)) w : omap (map_mx cjC) w = w -> normal cjC (map_mx cjC y) w = map_mx cjC (normal cjC y w).
Proof. by move=> E; rewrite /normal herm_conj dotdiag_conj // -map_mxM. Qed.

Lemma wlse_conj n (x : 'cV[C]_n) (y : 'M[C]_(n, q)) w : omap (map_mx cjC) w = w ->
  wlse cjC (map_mx cjC x) (map_mx cjC y) w = omap (map_mx cjC) (wlse cjC x y w).
Proof.
move=> E; rewrite /wlse normal_conj // map_unitmx; case: ifP => //= U; congr Some.
by rewrite /rhs herm_conj dotdiag_conj // -map_mxM -map_invmx -map_mxM.
Qed.

Lemma good_conj : good (k := fullK q) fr fb fe fz.
Proof.
split=> [l w|l z] /=.
- rewrite /full_wlse; case E : (weights_c w) => [w'|x] //=.
  rewrite (@wlse_rows_n _ _ (size l)) ?size_map // (@wlse_rows_n _ _ (size l)) ?size_map // conj_rows ?size_map //.
  have -> : \col_(i < size l) seq.nth 0 (List.map fe l) i = map_mx cjC (\col_(i < size l) seq.nth 0 (List.map fst l) i).
    by apply/matrixP => i j; rewrite !mxE (nth_map (0, 0)) // (nth_map (0, 0)).
  rewrite wlse_conj; last by apply: weights_real; apply: (weights_c_real E).
  by case: wlse.
- rewrite /full_resid List.map_map !combine_maps !List.map_map; apply: List.map_ext => -[x r]; apply: (f_equal Some).
  cbn [fst snd]; rewrite /fe /fb /fz -map_mxM /=; rewrite [map_mx _ _ 0 0]mxE; exact: (esym (rmorphB cjC x _)).
Qed.

Lemma vnorm_conj r : vnorm (List.map fr r) = vnorm r.
Proof. by rewrite /vnorm List.map_map; apply: List.map_ext => -[z|] //=; congr Some; exact: Cmod_cj. Qed.

Lemma wres_conj r w : full_wres (List.map fr r) w = full_wres r w.
Proof.
rewrite /full_wres List.map_length; congr Rabs; move: (weights_r _ w) => ws.
elim: ws r => [|x ws IH] [|a r] //=; rewrite IH; congr (Rplus (Rmult _ _) _); case: a => //= z; by rewrite !Cmod_cj.
Qed.

Lemma quad_conj b w : full_quad (List.map fb b) w = full_quad b w.
Proof.
rewrite (@full_quad_n _ (size b)) ?size_map // (@full_quad_n _ (size b)) //.
case: (check _ _) => //= _; case E : (weights_c w) => [w'|x] //=.
have Wr := weights_real (size b) (weights_c_real E).
rewrite conj_rows // normal_conj // map_unitmx; case: ifP => // U; congr Ok; apply: eq_map => i.
apply: (f_equal Fin); rewrite -map_invmx herm_conj -map_mxM.
rewrite -[RHS]Re_cj rmorph_sum /=; apply: (f_equal Re); apply: eq_bigr => j _.
by rewrite -[Cconj _]/(cjC _) rmorphM !mxE.
Qed.

Lemma call_conj w : of_library w = true -> wgood (k := fullK q) (fun h h' => h' = h) fr fb (call (fullW q) w).
Proof.
elim: w => [f|alpha|id xi|id inner IH lower khi] SW f1 f2 G l it r iv st st' R; cbn [of_library] in SW; try discriminate SW; subst st'; cbn [call].
- by split=> //; cbn [fst rmap]; rewrite /= vnorm_conj.
- rewrite List.map_length.
  have M : w_mad _ (fullW q) (List.map fr r) = w_mad _ (fullW q) r by rewrite /= vnorm_conj.
  have T x s : w_thomson _ (fullW q) x s (List.map fr r) = w_thomson _ (fullW q) x s r.
    by rewrite /= /thomson vnorm_conj List.map_length.
  case: it => [|it]; first by split; cbn [fst snd rmap]; rewrite M ?T.
  by case: (st id) => [[s|p]|]; split; cbn [fst snd rmap]; rewrite ?T.
- rewrite !List.map_length; set h := (match it with O => _ | _ => st end).
  case: (h id) => [[s|p]|]; try by split.
  case: Z.eqb; last by split.
  case: (IH SW f1 f2 G l it r iv h h erefl) => E1 E2.
  move: E1 E2; case: (call _ inner it r _ _ _ h) => r1 h1; case: (call _ inner it _ _ _ _ h) => r2 h2; cbn [fst snd] => -> ->.
  case: r1 => [w1|x]; cbn [rmap bind]; last by split.
  case: (of_option TypeError w1) => [w2|x]; cbn [bind]; last by split.
  case: (set_at w2 iv _) => [w3|x]; cbn [bind]; last by split.
  have -> : w_bi _ (fullW q) lower khi (List.map fb (List.map snd l)) p w3 = w_bi _ (fullW q) lower khi (List.map snd l) p w3.
    by rewrite /= /bi_formula quad_conj.
  by case: (w_bi _ _ _ _ _ _ _) => [[[biw tr] hat]|x]; split.
Qed.

Lemma full_conj o (outputs : list (list C)) (bs : list ('rV[C]_q)) ws iv st :
  List.Forall (fun e => List.length e = List.length bs) outputs ->
  List.Forall (fun w => match w with Some w => of_library w = true | None => True end) ws ->
  fst (transfer_function (k := fullK q) o (List.map (List.map Cconj) outputs) (List.map (map_mx cjC) bs) (weightings (fullW q) ws) None iv st)
  = rmap (List.map (fun r => (option_map (map_mx cjC) (fst r), snd r)))
      (fst (transfer_function (k := fullK q) o outputs bs (weightings (fullW q) ws) None iv st)).
Proof.
move=> F Ws.
pose outs : list (list (C * 'rV[C]_q) * ((C * 'rV[C]_q -> C) * ('cV[C]_q -> 'cV[C]_q))) :=
  List.map (fun e => (pairs bs e, (fe, fz))) outputs.
have W : List.Forall (fun ow => match ow with Some wf => wgood (k := fullK q) (fun h h' => h' = h) fr fb wf | None => True end) (weightings (fullW q) ws).
  rewrite /weightings; apply/List.Forall_map; apply: (List.Forall_impl _ _ Ws) => -[w|] //; exact: call_conj.
have O : List.Forall (fun p => List.map snd (fst p) = bs /\ good (k := fullK q) fr fb (fst (snd p)) (snd (snd p))) outs.
  apply/List.Forall_map; apply: (List.Forall_impl _ _ F) => e L; split; [exact: pairs_snd|exact: good_conj].
have GC : forall tol p cur, converged (k := fullK q) tol (option_map (fun x => x) p) cur = converged (k := fullK q) tol p cur by move=> tol [p|].
have [T _] := @transfer_sim (fullK q) (heap (fullW q)) (fun h h' => h' = h) fr (fun x => x) fb erefl wres_conj GC o _ W outs bs iv st st O erefl.
have E1 : List.map (fun p => List.map fst (fst p)) outs = outputs.
  rewrite /outs List.map_map; elim: (outputs) F => [|e os IH] //= F; inversion F; subst; by rewrite pairs_fst // IH.
have E2 : List.map (fun p => List.map (fst (snd p)) (fst p)) outs = List.map (List.map Cconj) outputs.
  rewrite /outs List.map_map; clear - F; elim: outputs F => [|e os IH] F //=; inversion F as [|? ? L]; subst; rewrite IH //; congr cons.
  by rewrite -{2}(pairs_fst L) List.map_map.
have LEN : forall rs, fst (transfer_function (k := fullK q) o outputs bs (weightings (fullW q) ws) None iv st) = Ok rs -> (List.length rs <= List.length outputs)%coq_nat.
  rewrite /transfer_function; move=> rs; case: (bind _ _) => [[ivs inits]|x] //=.
  elim: (outputs) inits ivs (st) rs => [|e os IH] [|z0 inits] [|iv1 ivs] s rs //=; try (by case=> <- /=; apply: le_0_n).
  case: iv1 => [iv1|x] //=; case: (chain _ _ _ _ _ _ _) => a s'; case: (bind a _) => [r1|x] //=.
  have := IH inits ivs s'; case: (each_output _ _ _ _ _ _ _) => [[rs2|x] s2] //= H [<-] /=; apply: le_n_S; exact: H.
move: T LEN; rewrite E1 E2 => ->; case: (fst _) => //= rs' /(_ _ erefl) LE; congr Ok.
rewrite /outs; elim: (outputs) rs' LE {F O E1 E2} => [|e os IH] [|r rs'] //= LE; first by inversion LE.
by rewrite IH //; apply: le_S_n.
Qed.
End Conj.
