(** The estimation on lists: combinations of the inputs, and parts of the inputs added to
    the outputs. *)
From Coq Require Import Reals Lra.
From Coquelicot Require Import Complex.
From mathcomp Require Import all_ssreflect all_algebra.
From Verif Require Import WlseModel WlseProofs CField.
From Verif Require Import Base BaseLemmas Arith TagsModel SyncModel SetModel FourierModel MestModel SpecMest SpecMestAll WeightModel RobustModel RobustWeights BiModel
  SimProofs SimRows FullModel SpecFull FullProofs OutputsProofs UtilsModel WholeModel WholeScale.
Set Implicit Arguments.
Unset Strict Implicit.
Unset Printing Implicit Defensive.
Import GRing.Theory.
Local Open Scope ring_scope.

(** the combinations of the entries of a row *)
Definition mix_row (q : nat) (M : nat -> nat -> C) (r : list C) : list C := [seq \sum_(j < q) M i j * seq.nth 0 r j | i <- iota 0 q].
Definition mix_matrix (q : nat) (M : nat -> nat -> C) : 'M[C]_q := \matrix_(j, i) M i j.
(** the output [c * e + r . z0] *)
Definition mix_out (q : nat) (c : C) (z0 : nat -> C) (p : C * list C) : C := c * p.1 + \sum_(j < q) z0 j * seq.nth 0 p.2 j.
Definition mix_est (q : nat) (M : nat -> nat -> C) (c : C) (z0 : nat -> C) (z : list C) : list C :=
  values (invmx (mix_matrix q M) *m (c *: column_of q z + \col_j z0 j)).

Lemma size_mix_row q M r : size (mix_row q M r) = q.
Proof. by rewrite /mix_row size_map size_iota. Qed.
Lemma nth_mix_row q M r i : is_true (leq (S i) q) -> seq.nth 0 (mix_row q M r) i = \sum_(j < q) M i j * seq.nth 0 r j.
Proof. by move=> H; rewrite (nth_map O) ?size_iota // nth_iota. Qed.
Lemma row_mix q M r : row_of q (mix_row q M r) = row_of q r *m mix_matrix q M.
Proof.
apply/matrixP => i j; rewrite !mxE nth_mix_row //; apply: eq_bigr => k _; by rewrite !mxE mulrC.
Qed.
Lemma column_values q (z : 'cV[C]_q) : column_of q (values z) = z.
Proof. by apply/matrixP => i j; rewrite mxE nth_values ord1. Qed.

Lemma full_nothing w : exists x, full_wlse (q := 1) [::] [::] w = Err x.
Proof.
rewrite /full_wlse; case: (weights_c w) => [w'|x]; last by exists x.
exists LinAlgError; rewrite /= /wlse_rows /wlse.
have -> : normal cjC (rows (size ([::] : list C)) ([::] : list 'rV[C]_1)) (weights (size ([::] : list C)) w') = 0.
  by apply/matrixP => i j; rewrite /normal !mxE big_ord0.
by rewrite unitmxE det_mx11 mxE unitr0.
Qed.

Section Mix.
Variables (q : nat) (M : nat -> nat -> C) (c : C).
Hypotheses (Hc : c <> RtoC 0) (HM : mix_matrix q M \in unitmx).
Let fr : option C -> option C := option_map (Cmult c).
Let g (x : R) : R := Rmult (Rmult (Cmod c) (Cmod c)) x.
Let fb := mix_row q M.
Let pb (r : list C) : Prop := size r = q.
Let P := mix_matrix q M.

Lemma mx_rows_mix b : mx_rows q (List.map fb b) = List.map (changed_row P) (mx_rows q b).
Proof. by rewrite /mx_rows !List.map_map; apply: List.map_ext => r; rewrite row_mix. Qed.
Let mx (l : list (C * list C)) : list (C * 'rV[C]_q) := List.map (fun p => (p.1, row_of q p.2)) l.
Lemma mixmx_fst l : List.map fst (mx l) = List.map fst l.
Proof. by rewrite /mx List.map_map. Qed.
Lemma mixmx_snd l : List.map snd (mx l) = mx_rows q (List.map snd l).
Proof. by rewrite /mx /mx_rows !List.map_map. Qed.
Lemma mixmx_out z0 l : List.map (fun p : C * 'rV[C]_q => c * p.1 + (p.2 *m (\col_j z0 (nat_of_ord j))) 0 0) (mx l) = List.map (mix_out q c z0) l.
Proof.
rewrite /mx List.map_map; apply: List.map_ext => p; rewrite /= /mix_out mxE; congr (_ + _); apply: eq_bigr => j _; by rewrite !mxE mulrC.
Qed.
Lemma width_fits (l : list (C * list C)) : List.Forall (fun p => pb (snd p)) l -> l = [::] \/ width (List.map snd l) = q /\ width (List.map fb (List.map snd l)) = q.
Proof.
case: l => [|p l] F; [by left|right]; inversion F as [|? ? F1 F2]; subst; split=> //.
by rewrite /width /= size_mix_row.
Qed.

Lemma good_mix z0 : rgood (k := listK) fr fb pb (mix_out q c z0) (mix_est q M c z0).
Proof.
have [G1 G2] := @good_change q c P HM (\col_j z0 (nat_of_ord j)).
split=> [l w|l z] F; cbn [k_wlse k_resid listK realK]; case: (width_fits F) => [-> //|[W1 W2]].
- rewrite /= /l_wlse; have [x E] := full_nothing w; by rewrite /mx_rows /= E.
- rewrite /l_wlse W2 W1 mx_rows_mix.
  move: (G1 (mx l) w); rewrite mixmx_fst mixmx_snd mixmx_out /= => ->.
  case: (full_wlse _ _ _) => [z|x] //=; by rewrite /mix_est column_values.
- rewrite /l_resid W2 W1 mx_rows_mix {1}/mix_est column_values.
  by move: (G2 (mx l) (column_of q z)); rewrite mixmx_fst mixmx_snd mixmx_out.
Qed.

Let RS := @l_RS c.
Lemma mix_bi lower khi b p w : List.Forall pb b -> w_bi _ listW lower khi (List.map fb b) p w = w_bi _ listW lower khi b p w.
Proof.
case: b => [|r b] // F; inversion F as [|? ? F1 F2]; subst.
rewrite /= /bi_formula /l_quad.
have -> : width (fb r :: List.map fb b) = q by rewrite /width /= size_mix_row.
have -> : width (r :: b) = q by [].
by rewrite (mx_rows_mix (r :: b)) (@quad_change _ _ HM).
Qed.

Lemma mix_call w : of_library w = true -> rwgood (k := listK) RS fr fb pb (call listW w).
Proof.
have HU alpha m r : w_huber _ listW alpha (option_map (Rmult (Cmod c)) m) (List.map fr r) = w_huber _ listW alpha m r := @huber_scaled 0 c Hc alpha m r.
have TH xi m r : w_thomson _ listW xi (option_map (Rmult (Cmod c)) m) (List.map fr r) = w_thomson _ listW xi m r := @thomson_scaled 0 c Hc xi m r.
have MA r : w_mad _ listW (List.map fr r) = option_map (Rmult (Cmod c)) (w_mad _ listW r) := @mad_scaled 0 c r.
elim: w => [f|alpha|id xi|id inner IH lower khi] SW f1 f2 G l it r iv st st' F R; cbn [of_library] in SW; try discriminate SW; cbn [call].
- by split=> //; cbn [fst rmap]; rewrite MA HU.
- rewrite List.map_length; case: it => [|it].
  + split; cbn [fst snd rmap]; rewrite MA; first by rewrite TH.
    exact: l_RS_set.
  + move: (R id); case: (st id) => [[s|p]|]; case: (st' id) => [[s'|p']|] //; try by [].
    by move=> ->; split=> //; cbn [fst rmap]; rewrite TH.
- set h := (match it with O => _ | _ => st end); set h' := (match it with O => _ | _ => st' end).
  have R1 : RS h h'.
  { subst h h'; destruct it; [|exact R]. apply: l_RS_set; [exact R|]. cbn [l_rs]; by rewrite !List.map_length. }
  move: (R1 id); case: (h id) => [[s|p]|]; case: (h' id) => [[s'|p']|] // E; try by split.
  rewrite /l_rs in E; subst p'; case: Z.eqb; last by split.
  case: (IH SW f1 f2 G l it r iv h h' F R1) => E1 E2.
  move: E1 E2; case: (call _ inner it r _ _ _ h) => r1 h1; case: (call _ inner it _ _ _ _ h') => r2 h2; cbn [fst snd] => -> R2.
  case: r1 => [w1|x]; cbn [rmap bind]; last by split.
  case: (of_option TypeError w1) => [w2|x]; cbn [bind]; last by split.
  case: (set_at w2 iv _) => [w3|x]; cbn [bind]; last by split.
  rewrite mix_bi; last by apply/List.Forall_map.
  case: (w_bi _ _ _ _ _ _ _) => [[[biw tr] hat]|x]; split=> //.
  exact: l_RS_set.
Qed.

(** one output *)
Lemma one_mixed z0 o l ws iv : List.Forall (fun p => size p.2 = q) l -> library_weights ws ->
  fst (transfer_function (k := listK) o [:: List.map (mix_out q c z0) l] (List.map fb (List.map snd l)) (weightings listW ws) None (IvEach [:: iv]) (fresh listW))
  = rmap (List.map (fun p => (option_map (mix_est q M c z0) (fst p), snd p)))
      (fst (transfer_function (k := listK) o [:: List.map fst l] (List.map snd l) (weightings listW ws) None (IvEach [:: iv]) (fresh listW))).
Proof.
move=> F Ws.
have W : List.Forall (fun ow => match ow with Some wf => rwgood (k := listK) RS fr fb pb wf | None => True end) (weightings listW ws).
  rewrite /weightings; apply/List.Forall_map; apply: (List.Forall_impl _ _ Ws) => -[w|] //; exact: mix_call.
pose outs : list (list (C * list C) * ((C * list C -> C) * (list C -> list C))) := [:: (l, (mix_out q c z0, mix_est q M c z0))].
have O : List.Forall (fun p => List.map snd (fst p) = List.map snd l /\ List.Forall (fun p => pb (snd p)) (fst p) /\ rgood (k := listK) fr fb pb (fst (snd p)) (snd (snd p))) outs.
  by constructor => //; split=> //; split=> //; exact: good_mix.
have [T _] := @transfer_rsim listK (heap listW) RS fr g fb pb erefl (@wres_change c) (@conv_change 0 c Hc) o _ W outs (List.map snd l) (IvEach [:: iv]) (fresh listW) (fresh listW) O (fun=> I).
move: T; rewrite /outs; cbn [List.map fst snd].
move=> ->; case E: (fst _) => [rs'|x] //=; congr Ok; by case: (single_result E) => r ->.
Qed.
End Mix.

(** ** Several outputs, for columns [cols]: output [p] is [p.1] of a column, the inputs are
    [bf] of a column *)
Section Several.
Variables (T : Type) (cols : list T) (q : nat) (M : nat -> nat -> C) (bf : T -> list C).
Hypotheses (HM : mix_matrix q M \in unitmx) (Hbf : forall t, size (bf t) = q).
Variables (o : opts listK) (ws : list (option (weight (k := listK)))).
Hypothesis (Ws : library_weights ws).

Definition chan : Type := (T -> C) * (C * (nat -> C)).
Definition before (p : chan) : list C := List.map p.1 cols.
Definition after (p : chan) : list C := List.map (fun t => mix_out q p.2.1 p.2.2 (p.1 t, bf t)) cols.
Definition mix_results (ps : list chan) (rs : list (option (list C) * list Z)) : list (option (list C) * list Z) :=
  List.map (fun p => (option_map (mix_est q M p.1.2.1 p.1.2.2) (fst p.2), snd p.2)) (combine ps rs).

Lemma one_chan p iv : p.2.1 <> RtoC 0 ->
  fst (transfer_function (k := listK) o [:: after p] (List.map (fun t => mix_row q M (bf t)) cols) (weightings listW ws) None (IvEach [:: iv]) (fresh listW))
  = rmap (List.map (fun x => (option_map (mix_est q M p.2.1 p.2.2) (fst x), snd x)))
     (fst (transfer_function (k := listK) o [:: before p] (List.map bf cols) (weightings listW ws) None (IvEach [:: iv]) (fresh listW))).
Proof.
move=> Hc; pose l := List.map (fun t => (p.1 t, bf t)) cols.
have F : List.Forall (fun p => size p.2 = q) l by apply/List.Forall_map; apply/List.Forall_forall => t _; exact: Hbf.
have := @one_mixed q M p.2.1 Hc HM p.2.2 o l ws iv F Ws; rewrite /l !List.map_map; exact.
Qed.

Let alone (b : list (list C)) (t : list C * option (list C) * list Z) :=
  fst (transfer_function (k := listK) o [:: fst (fst t)] b (weightings listW ws) (Some [:: snd (fst t)]) (IvEach [:: snd t]) (fresh listW)).

Lemma each_mixed : forall ps ivs, List.length ivs = List.length ps -> List.Forall (fun p => p.2.1 <> RtoC 0) ps ->
  bind (mapM (alone (List.map (fun t => mix_row q M (bf t)) cols)) (combine (combine (List.map after ps) (repeat None (List.length ps))) ivs)) (fun rss => Ok (List.concat rss))
  = rmap (mix_results ps) (bind (mapM (alone (List.map bf cols)) (combine (combine (List.map before ps) (repeat None (List.length ps))) ivs)) (fun rss => Ok (List.concat rss))).
Proof.
elim=> [|p ps IH] [|iv ivs] //= [L2] F1; inversion F1; subst.
have E : alone (List.map (fun t => mix_row q M (bf t)) cols) (after p, None, iv)
  = rmap (List.map (fun x => (option_map (mix_est q M p.2.1 p.2.2) (fst x), snd x))) (alone (List.map bf cols) (before p, None, iv)).
  by have := @one_chan p iv; rewrite /alone /=; apply.
rewrite {}E; case E1: (alone (List.map bf cols) (before p, None, iv)) => [rs|x] //=.
have [r ->] := single_result E1.
move: (IH ivs L2) => /(_ ltac:(assumption)).
case: (mapM _ _) => [rss|x]; case: (mapM _ _) => [rss'|x'] //= H; last by case: H => ->.
Qed.

Lemma transfer_mixed ps ivs h h' : ps <> [::] -> List.length ivs = List.length ps -> List.Forall (fun p => p.2.1 <> RtoC 0) ps ->
  fst (transfer_function (k := listK) o (List.map after ps) (List.map (fun t => mix_row q M (bf t)) cols) (weightings listW ws) None (IvEach ivs) h')
  = rmap (mix_results ps) (fst (transfer_function (k := listK) o (List.map before ps) (List.map bf cols) (weightings listW ws) None (IvEach ivs) h)).
Proof.
move=> Ho L2 Hc.
have Gf n : n = List.length ps -> givens_fit (IvEach ivs) n by case: (ivs) L2 => //= *; congruence.
have Gv n : n = List.length ps -> givens (IvEach ivs) n ivs.
  move=> E; split; first congruence. move=> i z Hz; case: (ivs) Hz => [|iv ivs'] //; by case: (i).
have Gu n : guesses (None : option (list (option (list C)))) n (repeat None n).
  split; first exact: repeat_length. by move=> i z H; apply: (repeat_spec n); exact: (nth_error_In _ _ H).
have Fl (u : chan -> list C) (v : T -> list C) : (forall p, List.length (u p) = List.length cols) ->
  List.Forall (fun e : list C => List.length e = List.length (List.map v cols)) (List.map u ps).
  by move=> H; apply/List.Forall_map; apply/List.Forall_forall => p _; rewrite H List.map_length.
have No (u : chan -> list C) : List.map u ps <> [::] by case: (ps) Ho.
have Lm (u : chan -> list C) : List.length (List.map u ps) = List.length ps by exact: List.map_length.
rewrite (@outputs_alone listK listW o _ _ ws None (IvEach ivs) (repeat None (List.length (List.map after ps))) ivs h').
- rewrite (@outputs_alone listK listW o _ _ ws None (IvEach ivs) (repeat None (List.length (List.map before ps))) ivs h).
  2: exact: No. 2: by apply: Fl => p; exact: List.map_length. 2: by []. 2: exact: Gf. 2: exact: Gu. 2: exact: Gv.
  rewrite !Lm; exact: each_mixed.
- exact: No.
- by apply: Fl => p; exact: List.map_length.
- by [].
- exact: Gf.
- exact: Gu.
- exact: Gv.
Qed.
End Several.

(** the identity changes nothing: estimates have one value for each input *)
Definition delta (i j : nat) : C := if i == j then 1 else 0.
Lemma mix_delta q : mix_matrix q delta = 1%:M.
Proof. by apply/matrixP => i j; rewrite !mxE /delta eq_sym; case: eqP => [/ord_inj ->|H]; [rewrite eqxx|case: eqP => // E; case: H; rewrite E]. Qed.
Lemma sum_delta q (F : nat -> C) i : is_true (leq (S i) q) -> \sum_(j < q) delta i j * F j = F i.
Proof.
move=> Hi; rewrite (bigD1 (Ordinal Hi)) //= big1 ?addr0; first by rewrite /delta eqxx mul1r.
move=> j N; rewrite /delta; case: eqP; last by rewrite mul0r.
by move=> E; case/eqP: N; apply: ord_inj.
Qed.
Lemma mix_row_delta q r : size r = q -> mix_row q delta r = r.
Proof.
move=> L; apply: (@eq_from_nth _ 0); first by rewrite size_mix_row.
by move=> i; rewrite size_mix_row => Hi; rewrite nth_mix_row // (@sum_delta q (fun j => seq.nth 0 r j)).
Qed.
Lemma size_mix_est q M c z0 z : size (mix_est q M c z0 z) = q.
Proof. exact: size_values. Qed.

Lemma estimates_sized (T : Type) (cols : list T) q (bf : T -> list C) o ws (es : list (T -> C)) ivs h l : (forall t, size (bf t) = q) -> library_weights ws ->
  es <> [::] -> List.length ivs = List.length es ->
  fst (transfer_function (k := listK) o (List.map (fun e => List.map e cols) es) (List.map bf cols) (weightings listW ws) None (IvEach ivs) h) = Ok l ->
  List.Forall (fun p => match fst p with Some z => size z = q | None => True end) l.
Proof.
move=> Hb Ws He Li H.
have U : mix_matrix q delta \in unitmx by rewrite mix_delta unitmx1.
pose ps : list (chan T) := List.map (fun e => (e, (RtoC 1, fun=> 0))) es.
have E1 : List.map (before cols) ps = List.map (fun e => List.map e cols) es by rewrite /ps List.map_map.
have E2 : List.map (after cols q bf) ps = List.map (fun e => List.map e cols) es.
  rewrite /ps List.map_map; apply: List.map_ext => e; rewrite /after /=; apply: List.map_ext => t.
  by rewrite /mix_out /= -[RtoC 1]/(1 : C) mul1r big1 ?addr0 // => j _; rewrite mul0r.
have E3 : List.map (fun t => mix_row q delta (bf t)) cols = List.map bf cols.
  by apply: List.map_ext => t; rewrite mix_row_delta.
have := @transfer_mixed T cols q delta bf U Hb o ws Ws ps ivs h h.
rewrite E1 E2 E3 H /= => X.
have {X} : Ok l = Ok (mix_results q delta ps l).
  apply: X; first by rewrite /ps => X; apply: He; case: (es) X. by rewrite /ps List.map_length.
  by apply/List.Forall_map; apply/List.Forall_forall => e _; apply/eqP; exact: oner_neq0.
case=> E; rewrite E; apply/List.Forall_forall => x /List.in_map_iff [[p y] [<- _]] /=.
by case: (fst y) => //= z; exact: size_mix_est.
Qed.
