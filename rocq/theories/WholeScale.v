(** The estimation on lists: other units of the inputs and of the outputs. *)
From Coq Require Import Reals Lra.
From Coquelicot Require Import Complex.
From mathcomp Require Import all_ssreflect all_algebra.
From Verif Require Import WlseModel WlseProofs CField.
From Verif Require Import Base BaseLemmas Arith TagsModel SyncModel SetModel FourierModel MestModel SpecMest SpecMestAll WeightModel RobustModel RobustWeights BiModel
  SimProofs FullModel SpecFull FullProofs OutputsProofs UtilsModel WholeModel.
Set Implicit Arguments.
Unset Strict Implicit.
Unset Printing Implicit Defensive.
Import GRing.Theory.
Local Open Scope ring_scope.

(** entry [j] times [d j] *)
Definition scale_row (d : nat -> C) (r : list C) : list C := [seq d j * seq.nth 0 r j | j <- iota 0 (size r)].

Lemma size_scale_row d r : size (scale_row d r) = size r.
Proof. by rewrite /scale_row size_map size_iota. Qed.
Lemma nth_scale_row d r j : seq.nth 0 (scale_row d r) j = d j * seq.nth 0 r j.
Proof.
case: (ltnP j (size r)) => H; last by rewrite !seq.nth_default ?mulr0 // size_scale_row.
by rewrite (nth_map O) ?size_iota // nth_iota.
Qed.

Lemma width_scale d b : width (List.map (scale_row d) b) = width b.
Proof. by case: b => //= r b; rewrite /width /= size_scale_row. Qed.

Lemma size_values q (z : 'cV[C]_q) : size (values z) = q.
Proof. by rewrite /values size_map size_enum_ord. Qed.
Lemma nth_values q (z : 'cV[C]_q) (j : 'I_q) : seq.nth 0 (values z) j = z j 0.
Proof. by rewrite /values (nth_map j) ?size_enum_ord // nth_ord_enum. Qed.

Lemma single_result (k : Kern) (St : Type) (o : opts k) e b (ws : list (option (wfun k St))) iv st rs :
  fst (transfer_function o [:: e] b ws None (IvEach [:: iv]) st) = Ok rs -> exists r, rs = [:: r].
Proof.
rewrite /transfer_function; cbn [iv_each List.length List.map bind negb Nat.eqb check forallb andb repeat].
case: (_ && true) => //; cbn [check bind each_output].
case: (chain _ _ _ _ _ _ _) => -[[z l]|x] st' //=.
by case: (merge_invalid_indices l) => [m|x] //= [<-]; eexists.
Qed.

Section Scale.
Variables (c : C) (d : nat -> C).
Hypotheses (Hc : c <> RtoC 0) (Hd : forall j, d j <> RtoC 0).
Let fr : option C -> option C := option_map (Cmult c).
Let g (x : R) : R := Rmult (Rmult (Cmod c) (Cmod c)) x.
Let fe (p : C * list C) : C := c * p.1.
Let fz (z : list C) : list C := scale_row (fun j => c / d j) z.
Let fb := scale_row d.

Let D q : 'M[C]_q := diag_mx (\row_j d j).
Lemma D_unit q : D q \in unitmx.
Proof.
rewrite unitmxE unitfE det_diag; apply/prodf_neq0 => j _; rewrite mxE; apply/eqP; exact: Hd.
Qed.
Lemma D_row q r : row_of q (fb r) = row_of q r *m D q.
Proof. by apply/matrixP => i j; rewrite mul_mx_diag !mxE nth_scale_row mulrC. Qed.
Lemma D_inv q (z : 'cV[C]_q) j : (invmx (D q) *m z) j 0 = z j 0 / d j.
Proof.
have E : (D q *m (invmx (D q) *m z)) j 0 = z j 0 by rewrite mulKVmx // D_unit.
rewrite mul_diag_mx mxE mxE in E; rewrite -{}E mulrAC mulfV ?mul1r //; apply/eqP; exact: Hd.
Qed.

Lemma values_inv q (z : 'cV[C]_q) : values (invmx (D q) *m (c *: z + 0)) = fz (values z).
Proof.
apply: (@eq_from_nth _ 0); first by rewrite size_scale_row !size_values.
move=> i; rewrite size_values => Hi; rewrite nth_scale_row !(nth_values _ (Ordinal Hi)) D_inv addr0 mxE; by rewrite mulrAC.
Qed.

Lemma column_inv q (z : list C) : column_of q (fz z) = invmx (D q) *m (c *: column_of q z + 0).
Proof.
by apply/matrixP => i j; rewrite ord1 D_inv addr0 !mxE nth_scale_row mulrAC.
Qed.

Lemma mx_rows_scale q b : mx_rows q (List.map fb b) = List.map (changed_row (D q)) (mx_rows q b).
Proof. by rewrite /mx_rows !List.map_map; apply: List.map_ext => r; rewrite D_row. Qed.

(** the rows as pairs of an output and a row of matrices *)
Let mx q (l : list (C * list C)) : list (C * 'rV[C]_q) := List.map (fun p => (p.1, row_of q p.2)) l.
Lemma mx_fst q l : List.map fst (mx q l) = List.map fst l.
Proof. by rewrite /mx List.map_map. Qed.
Lemma mx_snd q l : List.map snd (mx q l) = mx_rows q (List.map snd l).
Proof. by rewrite /mx /mx_rows !List.map_map. Qed.
Lemma mx_out q l : List.map (fun p : C * 'rV[C]_q => c * p.1 + (p.2 *m (0 : 'cV_q)) 0 0) (mx q l) = List.map fe l.
Proof. by rewrite /mx List.map_map; apply: List.map_ext => p; rewrite /= mulmx0 mxE addr0. Qed.

Lemma good_scale : good (k := listK) fr fb fe fz.
Proof.
split=> [l w|l z]; cbn [k_wlse k_resid listK realK].
- rewrite /l_wlse width_scale mx_rows_scale; set q := width _.
  have [G _] := @good_change q c (D q) (D_unit q) 0.
  move: (G (mx q l) w); rewrite mx_fst mx_snd mx_out /= => ->.
  case: (full_wlse _ _ _) => [z|x] //=; by rewrite values_inv.
- rewrite /l_resid width_scale mx_rows_scale column_inv; set q := width _.
  have [_ G] := @good_change q c (D q) (D_unit q) 0.
  by move: (G (mx q l) (column_of q z)); rewrite mx_fst mx_snd mx_out.
Qed.

(** the same for lists of any lengths *)
Let padded q n (b : list 'rV[C]_q) : list 'rV[C]_q := [seq seq.nth 0 b i | i <- iota 0 n].
Lemma wlse_padded q e (b : list 'rV[C]_q) : full_wlse e b None = full_wlse e (padded (size e) b) None.
Proof.
rewrite /full_wlse /=; congr (of_option _ (wlse _ _ _ _)).
by apply/matrixP => i j; rewrite !mxE (nth_map O) ?size_iota // nth_iota.
Qed.
Lemma padded_change q n (b : list 'rV[C]_q) : padded n (List.map (changed_row (D q)) b) = List.map (changed_row (D q)) (padded n b).
Proof.
rewrite /padded -[List.map _ (seq.map _ _)]/([seq _ | _ <- _]) -map_comp; apply: eq_map => i /=.
elim: b i => [|r b IH] [|i] //=; by rewrite /changed_row mul0mx.
Qed.
Lemma l_wlse_any e b : l_wlse (List.map (Cmult c) e) (List.map fb b) None = rmap fz (l_wlse e b None).
Proof.
rewrite /l_wlse width_scale mx_rows_scale; set q := width _; move: (mx_rows q b) => B.
rewrite wlse_padded -[size _]/(List.length _) List.map_length padded_change [in RHS]wlse_padded.
set B2 := padded _ B.
have L : List.length e = List.length B2 by rewrite -[RHS]/(size B2) /B2 /padded size_map size_iota.
have [G _] := @good_change q c (D q) (D_unit q) 0.
move: (G (combine e B2) None); rewrite pairs_snd // pairs_fst //= => E.
have {}E : full_wlse (List.map (Cmult c) e) (List.map (changed_row (D q)) B2) None = rmap (fun z => invmx (D q) *m (c *: z + 0)) (full_wlse e B2 None).
  rewrite -E; congr (full_wlse _ _ _); rewrite -{1}(pairs_fst L) List.map_map; apply: List.map_ext => p; by rewrite mulmx0 mxE addr0.
rewrite E; case: (full_wlse _ _ _) => [z|x] //=; by rewrite values_inv.
Qed.
Lemma l_resid_any e b z : l_resid (List.map (Cmult c) e) (List.map fb b) (fz z) = List.map fr (l_resid e b z).
Proof.
rewrite /l_resid width_scale mx_rows_scale column_inv; set q := width _; move: (mx_rows q b) => B; rewrite /full_resid.
have CM : forall (x : list C) (y : list 'rV[C]_q), combine (List.map (Cmult c) x) (List.map (changed_row (D q)) y) = List.map (fun p => (c * p.1, p.2 *m D q)) (combine x y).
  elim=> [|u x IH] [|v y] //=; by rewrite IH.
rewrite CM !List.map_map; apply: List.map_ext => p /=; congr Some.
rewrite -mulmxA mulKVmx ?D_unit // addr0 -scalemxAr mxE; by rewrite -[Cmult c _]/(c * _) mulrBr.
Qed.

Definition l_rs (s s' : wstate listW) : Prop :=
  match s, s' with
  | SThomson s, SThomson s' => s' = option_map (Rmult (Cmod c)) s
  | SBi p, SBi p' => p' = p
  | _, _ => False
  end.
Definition l_RS (h h' : heap listW) : Prop := forall i,
  match h i, h' i with
  | None, None => True
  | Some s, Some s' => l_rs s s'
  | _, _ => False
  end.
Lemma l_RS_set h h' i s s' : l_RS h h' -> l_rs s s' -> l_RS (hset listW h i s) (hset listW h' i s').
Proof. move=> R S j; rewrite /hset; case: Nat.eqb => //; exact: R. Qed.

Lemma l_bi lower khi b p w : w_bi _ listW lower khi (List.map fb b) p w = w_bi _ listW lower khi b p w.
Proof. by rewrite /= /bi_formula /l_quad width_scale mx_rows_scale (@quad_change _ _ (D_unit _)). Qed.

Lemma l_call w : of_library w = true -> wgood (k := listK) l_RS fr fb (call listW w).
Proof.
have HU alpha m r : w_huber _ listW alpha (option_map (Rmult (Cmod c)) m) (List.map fr r) = w_huber _ listW alpha m r := @huber_scaled 0 c Hc alpha m r.
have TH xi m r : w_thomson _ listW xi (option_map (Rmult (Cmod c)) m) (List.map fr r) = w_thomson _ listW xi m r := @thomson_scaled 0 c Hc xi m r.
have MA r : w_mad _ listW (List.map fr r) = option_map (Rmult (Cmod c)) (w_mad _ listW r) := @mad_scaled 0 c r.
elim: w => [f|alpha|id xi|id inner IH lower khi] SW f1 f2 G l it r iv st st' R; cbn [of_library] in SW; try discriminate SW; cbn [call].
- by split=> //; cbn [fst rmap]; rewrite MA HU.
- rewrite List.map_length; case: it => [|it].
  + split; cbn [fst snd rmap]; rewrite MA; first by rewrite TH.
    exact: l_RS_set.
  + move: (R id); case: (st id) => [[s|p]|]; case: (st' id) => [[s'|p']|] //; try by [].
    by move=> ->; split=> //; cbn [fst rmap]; rewrite TH.
- set h := (match it with O => _ | _ => st end); set h' := (match it with O => _ | _ => st' end).
  have R1 : l_RS h h'.
  { subst h h'; destruct it; [|exact R]. apply: l_RS_set; [exact R|]. cbn [l_rs]; by rewrite !List.map_length. }
  move: (R1 id); case: (h id) => [[s|p]|]; case: (h' id) => [[s'|p']|] // E; try by split.
  rewrite /l_rs in E; subst p'; case: Z.eqb; last by split.
  case: (IH SW f1 f2 G l it r iv h h' R1) => E1 E2.
  move: E1 E2; case: (call _ inner it r _ _ _ h) => r1 h1; case: (call _ inner it _ _ _ _ h') => r2 h2; cbn [fst snd] => -> R2.
  case: r1 => [w1|x]; cbn [rmap bind]; last by split.
  case: (of_option TypeError w1) => [w2|x]; cbn [bind]; last by split.
  case: (set_at w2 iv _) => [w3|x]; cbn [bind]; last by split.
  rewrite l_bi; case: (w_bi _ _ _ _ _ _ _) => [[[biw tr] hat]|x]; split=> //.
  exact: l_RS_set.
Qed.

Definition library_weights (ws : list (option (weight (k := listK)))) : Prop :=
  List.Forall (fun w => match w with Some w => of_library w = true | None => True end) ws.

(** one output *)
Lemma one_scaled o e bs ws iv : List.length e = List.length bs -> library_weights ws ->
  fst (transfer_function (k := listK) o [:: List.map (Cmult c) e] (List.map fb bs) (weightings listW ws) None (IvEach [:: iv]) (fresh listW))
  = rmap (List.map (fun p => (option_map fz (fst p), snd p)))
      (fst (transfer_function (k := listK) o [:: e] bs (weightings listW ws) None (IvEach [:: iv]) (fresh listW))).
Proof.
move=> L Ws.
have W : List.Forall (fun ow => match ow with Some wf => wgood (k := listK) l_RS fr fb wf | None => True end) (weightings listW ws).
  rewrite /weightings; apply/List.Forall_map; apply: (List.Forall_impl _ _ Ws) => -[w|] //; exact: l_call.
pose outs : list (list (C * list C) * ((C * list C -> C) * (list C -> list C))) := [:: (combine e bs, (fe, fz))].
have Efst : List.map fst (combine e bs) = e by elim: (e) (bs) L => [|x e' IH] [|b bs'] //= [/IH ->].
have Esnd : List.map snd (combine e bs) = bs by elim: (e) (bs) L => [|x e' IH] [|b bs'] //= [/IH ->].
have O : List.Forall (fun p => List.map snd (fst p) = bs /\ good (k := listK) fr fb (fst (snd p)) (snd (snd p))) outs.
  by constructor => //; split=> //; exact: good_scale.
have [T _] := @transfer_sim listK (heap listW) l_RS fr g fb erefl (@wres_change c) (@conv_change 0 c Hc) o _ W outs bs (IvEach [:: iv]) (fresh listW) (fresh listW) O (fun=> I).
move: T; rewrite /outs; cbn [List.map fst snd]; rewrite Efst.
have -> : List.map fe (combine e bs) = List.map (Cmult c) e by rewrite -{2}Efst List.map_map.
move=> ->; case E: (fst _) => [rs'|x] //=; congr Ok; by case: (single_result E) => r ->.
Qed.
End Scale.

(** ** Several outputs, each in its own unit *)
Definition scale_each (cs : list C) (outputs : list (list C)) : list (list C) := List.map (fun p => List.map (Cmult (fst p)) (snd p)) (combine cs outputs).
Definition scale_results (d : nat -> C) (cs : list C) (rs : list (option (list C) * list Z)) : list (option (list C) * list Z) :=
  List.map (fun p => (option_map (scale_row (fun j => fst p / d j)) (fst (snd p)), snd (snd p))) (combine cs rs).

Section Each.
Variables (d : nat -> C) (o : opts listK) (bs : list (list C)) (ws : list (option (weight (k := listK)))).
Hypotheses (Hd : forall j, d j <> RtoC 0) (Ws : library_weights ws).
Let alone (b : list (list C)) (t : list C * option (list C) * list Z) :=
  fst (transfer_function (k := listK) o [:: fst (fst t)] b (weightings listW ws) (Some [:: snd (fst t)]) (IvEach [:: snd t]) (fresh listW)).

Lemma each_scaled : forall cs outs ivs, List.length cs = List.length outs -> List.length ivs = List.length outs ->
  List.Forall (fun c => c <> RtoC 0) cs -> List.Forall (fun e => List.length e = List.length bs) outs ->
  bind (mapM (alone (List.map (scale_row d) bs)) (combine (combine (scale_each cs outs) (repeat None (List.length outs))) ivs)) (fun rss => Ok (List.concat rss))
  = rmap (scale_results d cs) (bind (mapM (alone bs) (combine (combine outs (repeat None (List.length outs))) ivs)) (fun rss => Ok (List.concat rss))).
Proof.
elim=> [|c cs IH] [|e outs] [|iv ivs] //= [L1] [L2] F1 F2; inversion F1; inversion F2; subst.
have E : alone (List.map (scale_row d) bs) (List.map (Cmult c) e, None, iv) = rmap (List.map (fun p => (option_map (scale_row (fun j => c / d j)) (fst p), snd p))) (alone bs (e, None, iv)).
  have := @one_scaled c d _ Hd o e bs ws iv; rewrite /alone /=; apply=> //.
rewrite -/(scale_each cs outs) {}E; case E1: (alone bs (e, None, iv)) => [rs|x] //=.
have [r ->] := single_result E1.
move: (IH outs ivs L1 L2) => /(_ ltac:(assumption) ltac:(assumption)).
case: (mapM _ _) => [rss|x]; case: (mapM _ _) => [rss'|x'] //= H; last by case: H => ->.
Qed.
End Each.

Lemma transfer_scaled d o bs ws cs outs ivs h h' : (forall j, d j <> RtoC 0) -> library_weights ws ->
  outs <> [::] -> List.length cs = List.length outs -> List.length ivs = List.length outs -> List.Forall (fun c => c <> RtoC 0) cs ->
  fst (transfer_function (k := listK) o (scale_each cs outs) (List.map (scale_row d) bs) (weightings listW ws) None (IvEach ivs) h')
  = rmap (scale_results d cs) (fst (transfer_function (k := listK) o outs bs (weightings listW ws) None (IvEach ivs) h)).
Proof.
move=> Hd Ws Ho L1 L2 Hc.
have Ls : List.length (scale_each cs outs) = List.length outs by rewrite /scale_each List.map_length List.combine_length L1 Nat.min_id.
have Hl : List.map (@List.length _) (scale_each cs outs) = List.map (@List.length _) outs.
  by elim: (cs) (outs) L1 {Ho L2 Hc Ls} => [|c cs' IH] [|e outs'] //= [L]; rewrite List.map_length -(IH _ L).
have Hb : List.length (List.map (scale_row d) bs) = List.length bs by rewrite List.map_length.
have [F|N] := List.Forall_dec (fun e : list C => List.length e = List.length bs) (fun e => Nat.eq_dec _ _) outs.
- have Gf (l : list (list C)) : List.length l = List.length outs -> givens_fit (IvEach ivs) (List.length l) by case: (ivs) L2 => //= *; congruence.
  have Gv (l : list (list C)) : List.length l = List.length outs -> givens (IvEach ivs) (List.length l) ivs.
    move=> E; split; first congruence. move=> i z Hz; case: (ivs) Hz => [|iv ivs'] //; by case: (i).
  have Gu (l : list (list C)) : guesses (None : option (list (option (list C)))) (List.length l) (repeat None (List.length l)).
    split; first exact: repeat_length. by move=> i z H; apply: (repeat_spec (List.length l)); exact: (nth_error_In _ _ H).
  rewrite (@outputs_alone listK listW o _ _ ws None (IvEach ivs) (repeat None (List.length (scale_each cs outs))) ivs h').
  + rewrite (@outputs_alone listK listW o _ _ ws None (IvEach ivs) (repeat None (List.length outs)) ivs h).
    2: by []. 2: by []. 2: by []. 2: exact: Gf. 2: exact: Gu. 2: exact: Gv.
    rewrite Ls; exact: each_scaled.
  + by case: (outs) (cs) Ho L1 => [|? ?] [|? ?].
  + apply/List.Forall_forall => e He; rewrite Hb.
    have : List.In (List.length e) (List.map (@List.length _) (scale_each cs outs)) by apply: List.in_map.
    rewrite Hl => /List.in_map_iff [e' [<- He']]; by move/List.Forall_forall: F; apply.
  + by [].
  + exact: Gf.
  + exact: Gu.
  + exact: Gv.
- have X l : List.length l = List.length outs -> List.map (@List.length _) l = List.map (@List.length _) outs -> forall st b', List.length b' = List.length bs ->
    fst (transfer_function (k := listK) o l b' (weightings listW ws) None (IvEach ivs) st) = Err AssertionError.
    move=> E1 E2 st b' E3; rewrite /transfer_function.
    have -> : iv_each (List.length l) (IvEach ivs) = Ok (List.map Ok ivs).
      rewrite E1 -L2; case: (ivs) L2 => [|iv ivs']; first by case: (outs) Ho.
      by move=> _; rewrite /iv_each /= List.map_length Nat.eqb_refl.
    have -> : forallb (fun e => Nat.eqb (List.length e) (List.length b')) l = false.
      apply/negP => /List.forallb_forall A; apply: N; apply/List.Forall_forall => e He.
      have : List.In (List.length e) (List.map (@List.length _) l) by rewrite E2; apply: List.in_map.
      case/List.in_map_iff => e' [<- He']; rewrite -E3; apply/Nat.eqb_eq; exact: A.
    by [].
  by rewrite !X.
Qed.
