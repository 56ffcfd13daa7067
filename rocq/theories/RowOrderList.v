(** The kernels on lists do not depend on the order of the rows. *)
From Coq Require Import Reals Lra.
From Coquelicot Require Import Complex.
From mathcomp Require Import all_ssreflect all_algebra.
From Verif Require Import WlseModel WlseProofs CField.
From Verif Require Import Base BaseLemmas Arith TagsModel SyncModel SetModel FourierModel MestModel WeightModel RobustModel RobustWeights BiModel SimProofs FullModel SpecFull FullProofs RowOrderProofs RowOrderFull PrefilterModel UtilsModel WholeModel.
Set Implicit Arguments.
Unset Strict Implicit.
Unset Printing Implicit Defensive.
Import GRing.Theory.
Local Open Scope ring_scope.

Section Kernel.
Variable q : nat.
Definition wide (r : list C) : Prop := size r = q.

Lemma width_map (b : nat -> list C) s : (forall i, wide (b i)) -> s <> [::] -> width (List.map b s) = q.
Proof. by case: s => // i s Hb _; exact: Hb. Qed.
Lemma width_perm (b : nat -> list C) s s' : (forall i, wide (b i)) -> Permutation s s' -> width (List.map b s') = width (List.map b s).
Proof.
move=> Hb; case: s => [|i s] P; first by rewrite (Permutation_nil P).
have N : s' <> [::] by move=> E; rewrite E in P; exact: (Permutation_nil_cons (Permutation_sym P)).
by rewrite !width_map.
Qed.
Lemma mx_rows_map D (b : nat -> list C) s : mx_rows D (List.map b s) = List.map (fun i => row_of D (b i)) s.
Proof. by rewrite /mx_rows List.map_map. Qed.

Lemma l_wlse_order (e : nat -> C) (b : nat -> list C) W ids ids' : (forall i, wide (b i)) -> Permutation ids ids' ->
  l_wlse (List.map e ids') (List.map b ids') (wmap W ids') = l_wlse (List.map e ids) (List.map b ids) (wmap W ids).
Proof. by move=> Hb P; rewrite /l_wlse (width_perm Hb P) !mx_rows_map (full_wlse_order _ _ _ P). Qed.

Definition l_resid1 (e : C) (b : list C) (z : list C) : option C := RowOrderFull.resid1 e (row_of q b) (column_of q z).
Lemma l_resid_rows (e : nat -> C) (b : nat -> list C) ids z : (forall i, wide (b i)) ->
  l_resid (List.map e ids) (List.map b ids) z = List.map (fun i => l_resid1 (e i) (b i) z) ids.
Proof.
move=> Hb; rewrite /l_resid; case: ids => [|i ids] //.
rewrite (width_map Hb) // mx_rows_map; exact: full_resid_rows.
Qed.

(** ** The weights of the library *)
Definition rel (ids ids' : list nat) (s s' : option (wstate (listW))) : Prop :=
  match s, s' with
  | None, None => True
  | Some (SThomson s), Some (SThomson s') => s' = s
  | Some (SBi p), Some (SBi p') => bi_it p' = bi_it p /\ bi_trace p' = bi_trace p /\
      exists W H, bi_weight p = wmap W ids /\ bi_weight p' = wmap W ids' /\ bi_hat p = wmap H ids /\ bi_hat p' = wmap H ids'
  | _, _ => False
  end.

Lemma bi_order lower khi (b : nat -> list C) ids ids' p p' (w : nat -> ext) : (forall i, wide (b i)) -> Permutation ids ids' ->
  rel ids ids' (Some (SBi (listW) p)) (Some (SBi (listW) p')) ->
  (exists x, w_bi _ (listW) lower khi (List.map b ids) p (List.map w ids) = Err x /\ w_bi _ (listW) lower khi (List.map b ids') p' (List.map w ids') = Err x) \/
  (exists bw tr hat, w_bi _ (listW) lower khi (List.map b ids) p (List.map w ids) = Ok (List.map bw ids, tr, List.map hat ids) /\
    w_bi _ (listW) lower khi (List.map b ids') p' (List.map w ids') = Ok (List.map bw ids', tr, List.map hat ids')).
Proof.
move=> Hb P [_ [Et [W [H [E1 [E1' [E2 E2']]]]]]]; rewrite /= /bi_formula E1 E1' E2 E2' Et /l_quad (width_perm Hb P).
set D := width (List.map b ids); rewrite !mx_rows_map !full_quad_rows.
have -> : (match W with Some f => forallb (fun i => finite (f i)) ids' | None => true end) = (match W with Some f => forallb (fun i => finite (f i)) ids | None => true end).
  by case: W {E1 E1'} => // f; rewrite (forallb_perm _ P).
case: (match W with Some f => _ | None => true end); last by left; exists ValueError.
rewrite -(gram_perm _ _ P); case: ifP => U; last by left; exists LinAlgError.
right; cbn [bind].
set Q := fun i => quad1 (gramW (fun i => row_of D (b i)) (wfin W) ids) (row_of D (b i)).
pose h i := xmul (match W with Some f => f i | None => Fin R1 end) (Q i).
pose y i := xdiv (xmul (bi_trace p) (h i)) (Fin (INR D)).
pose hat i := hat_next lower khi (match H with Some f => f i | None => Fin R1 end) (y i).
exists (fun i => xmul (w i) (hat i)), (xsum (List.map (fun i => xmul (w i) (hat i)) ids)), hat.
have Eh s : (match wmap W s with None => List.map (xmul (Fin 1)) (List.map Q s) | Some pw => map2 xmul pw (List.map Q s) end) = List.map h s.
  by rewrite /h; case: (W) => [f|] /=; rewrite ?map2_map ?List.map_map.
have Ehat s : (match wmap H s with None => List.map (hat_next lower khi (Fin 1)) (List.map y s) | Some ph => map2 (hat_next lower khi) ph (List.map y s) end) = List.map hat s.
  by rewrite /hat; case: (H) => [f|] /=; rewrite ?map2_map ?List.map_map.
have X s : List.map (fun x => xdiv (xmul (bi_trace p) x) (Fin (INR D))) (List.map h s) = List.map y s by rewrite List.map_map.
split; cbv zeta; rewrite Eh X Ehat map2_map //.
by rewrite (xsum_perm _ P).
Qed.

Lemma call_order w : of_library w = true -> worder (k := listK) wide (call (listW) w).
Proof.
move=> SW; exists (fun s s' h h' => forall i, In i (WeightModel.ids w) -> rel s s' (h i) (h' i)).
move=> e b; elim: w SW => [f|alpha|id xi|id inner IH lower khi] SW r it s s' J iv iv' h h' HB P M M' R; cbn [of_library] in SW; try discriminate SW; cbn [call].
- have PR : Permutation (List.map r s) (List.map r s') by apply: Permutation_map.
  exists (Ok (Some (fun i => xmin1 (xdiv (xmul (Fin alpha) (of_opt (mad_scale (vnorm (List.map r s))))) (of_opt (option_map Cmod (r i))))))).
  cbn [fst snd rmap wmap option_map]; split; first by rewrite /= /vnorm !List.map_map.
  split; first by rewrite /= (mad_perm _ _ PR) /vnorm !List.map_map.
  by [].
- have PR : Permutation (List.map r s) (List.map r s') by apply: Permutation_map.
  have PL : List.length s' = List.length s by rewrite (Permutation_length P).
  have T scale x t : List.length t = List.length s -> w_thomson _ (listW) x scale (List.map r t)
    = List.map (fun i => expexp (xdiv (of_opt (option_map Cmod (r i))) (of_opt scale)) (Fin x)) t.
    by move=> _; rewrite /= /thomson /vnorm !List.map_map.
  rewrite !List.map_length PL; case: it R => [|it] R.
  + eexists (Ok (Some (fun i => expexp (xdiv (of_opt (option_map Cmod (r i))) (of_opt (mad_scale (vnorm (List.map r s))))) (Fin _)))).
    cbn [fst snd rmap wmap option_map]; split; first by apply: (f_equal Ok); apply: (f_equal Some); rewrite T //.
    split; first by apply: (f_equal Ok); apply: (f_equal Some); rewrite T //= (mad_perm _ _ PR).
    move=> i; cbn [WeightModel.ids]; case=> [<-|] //=; rewrite /hset Nat.eqb_refl /= (mad_perm _ _ PR) //.
  + case: R => [|R] //; have := R id; cbn [WeightModel.ids]; move/(_ (or_introl erefl)).
    case E : (h id) => [[sc|p]|]; case E' : (h' id) => [[sc'|p']|] //; cbn [rel]; try by exists (Err KeyError).
    move=> ->; eexists (Ok (Some (fun i => expexp (xdiv (of_opt (option_map Cmod (r i))) (of_opt sc)) (Fin _)))).
    cbn [fst snd rmap wmap option_map]; split; first by apply: (f_equal Ok); apply: (f_equal Some); rewrite T.
    by split; first by apply: (f_equal Ok); apply: (f_equal Some); rewrite T.
- set g := (match it with O => _ | _ => h end); set g' := (match it with O => _ | _ => h' end).
  have R1 : it = O \/ (forall i, In i (WeightModel.ids inner) -> rel s s' (g i) (g' i)).
    case: it R @g @g' => [|it] R g g'; [by left|right]; case: R => // R i Hi; apply: R; by right.
  have R2 : rel s s' (g id) (g' id).
    case: it R @g @g' {R1} => [|it] R g g'; last by (case: R => // R; apply: R; left).
    rewrite /g /g' /hset Nat.eqb_refl !List.map_length; split=> //; split; first by rewrite (Permutation_length P).
    by exists None, None.
  case E : (g id) R2 => [[sc|p]|]; case E' : (g' id) => [[sc'|p']|] // R2; try by exists (Err AssertionError).
  have [Eit _] := R2; rewrite Eit; case: Z.eqb; last by exists (Err AssertionError).
  have [rw [H1 [H2 H3]]] := IH SW r it s s' J iv iv' g g' HB P M M' R1.
  move: H1 H2 H3; case: (call _ inner it (List.map r s) _ _ _ g) => r1 h1; case: (call _ inner it (List.map r s') _ _ _ g') => r2 h2; cbn [fst snd] => -> -> R3.
  case: rw R3 => [[w1|]|x] R3; cbn [rmap bind wmap option_map of_option]; try by exists (Err TypeError). 2: by exists (Err x).
  rewrite (marks_set w1 s iv J _ M) (marks_set w1 s' iv' J _ M'); cbn [bind].
  case: (@bi_order lower khi b s s' p p' (fun i => if J i then k_zero (listK) else w1 i) HB P R2) => [[x [-> ->]]|[bw [tr [hat [-> ->]]]]]; first by exists (Err x).
  exists (Ok (Some bw)); cbn [fst snd rmap wmap option_map]; split=> //; split=> // i; cbn [WeightModel.ids] => Hi.
  rewrite /hset; case EI : (Nat.eqb i id); first by split=> //; split=> //; exists (Some bw), (Some hat).
  case: Hi => [Hi|Hi]; first by move: EI; rewrite Hi Nat.eqb_refl.
  exact: R3.
Qed.


Lemma list_order o p (b b' : list (list C)) ws outputs outputs' init iv iv' st st' :
  Permutation p (List.seq 0 (List.length b)) -> reordered p b b' -> List.Forall wide b -> List.Forall2 (reordered p) outputs outputs' ->
  List.Forall (fun e => List.length e = List.length b) outputs -> same_rows_given p iv iv' ->
  List.Forall (fun w => match w with Some w => of_library w = true | None => True end) ws ->
  match fst (transfer_function (k := listK) o outputs b (weightings listW ws) init iv st),
        fst (transfer_function (k := listK) o outputs' b' (weightings listW ws) init iv' st') with
  | Ok rs, Ok rs' => List.Forall2 (fun r r' => fst r' = fst r /\ same_rows p (snd r) (snd r')) rs rs'
  | Err x, Err x' => x' = x
  | _, _ => False
  end.
Proof.
move=> P RB OB RO L RI Ws.
apply: (@transfer_order listK (heap listW) wide (0 : C) (List.repeat (0 : C) q) l_resid1) => //.
- exact: List.repeat_length.
- exact: l_wlse_order.
- exact: l_resid_rows.
- exact: full_wres_order.
- rewrite /weightings; apply/List.Forall_map; apply: (List.Forall_impl _ _ Ws) => -[w|] //; exact: call_order.
Qed.
End Kernel.
