(** The determination filter does not depend on the units. *)
From Coq Require Import Reals Lra.
From Coquelicot Require Import Complex.
From mathcomp Require Import all_ssreflect all_algebra.
From Verif Require Import CField.
From Verif Require Import Base BaseLemmas Arith TagsModel SyncModel SetModel FourierModel MestModel SpecMest WeightModel RobustModel BiModel
  SimProofs FullModel SpecFull PrefilterModel UtilsModel SpecUtils WholeModel WholeScale WholeUnits SpecWhole WholeImpedance.
Set Implicit Arguments.
Unset Strict Implicit.
Unset Printing Implicit Defensive.
Import GRing.Theory.
Local Open Scope ring_scope.

Lemma energy_scale c e : energy_of (List.map (Cmult c) e) = Rmult (Rmult (Cmod c) (Cmod c)) (energy_of e).
Proof.
rewrite /energy_of; elim: e => [|x e IH] /=; first by rewrite Rmult_0_r.
by rewrite IH Cmod_mult; ring.
Qed.
Lemma squares_scale c l : fold_right Rplus R0 (List.map square (List.map (option_map (Cmult c)) l)) =
  Rmult (Rmult (Cmod c) (Cmod c)) (fold_right Rplus R0 (List.map square l)).
Proof.
elim: l => [|[x|] l IH] /=; first by rewrite Rmult_0_r.
- by rewrite IH Cmod_mult; ring.
- by rewrite IH; ring.
Qed.

Lemma cod_scale c d e b : c <> RtoC 0 -> (forall j, d j <> RtoC 0) ->
  l_cod (List.map (Cmult c) e) (List.map (scale_row d) b) = l_cod e b.
Proof.
move=> Hc Hd; rewrite /l_cod l_wlse_any //; case: (l_wlse _ _ _) => //= z; rewrite l_resid_any // squares_scale energy_scale.
have Nc : Cmod c <> R0 by move/Cmod_eq_0.
congr Ok; case: (Req_EM_T (energy_of e) R0) => He; case: (Req_EM_T _ R0) => He' //.
- by case: He'; rewrite He Rmult_0_r.
- case: (Rmult_integral _ _ He') => // /Rmult_integral; by case.
- congr Some; congr sqrt; field; by split.
Qed.

Lemma entrywise_scale (d : nat -> C) rows rows' : entrywise (fun i j x => Cmult (d j) x) rows rows' -> rows' = List.map (scale_row d) rows.
Proof.
have NE (T : Type) (l l' : list T) : (forall i, nth_error l i = nth_error l' i) -> l = l'.
  elim: l l' => [|x l IH] [|y l'] H //; try by move: (H O).
  by move: (H O) => /= [->]; congr cons; apply: IH => i; exact: (H (S i)).
move=> [L H]; apply: (NE) => i; rewrite List.nth_error_map.
case E: (nth_error rows i) => [row|] /=; last by apply/List.nth_error_None; rewrite L; exact/List.nth_error_None.
have [row' [-> [L' H']]] := H _ _ E; congr Some; apply: (NE) => j.
have [S1 S2] := scale_row_spec d row.
case E': (nth_error row j) => [x|]; first by rewrite (H' _ _ E') (S2 _ _ E').
transitivity (@None C); [|symmetry]; apply/List.nth_error_None; rewrite ?L' ?S1; exact/List.nth_error_None.
Qed.

Section Blocks.
Variables (f : list C -> list C) (c : C) (d : nat -> C).
Lemma butlast_map (S T : Type) (g : S -> T) l : butlast (List.map g l) = List.map g (butlast l).
Proof. by rewrite /butlast List.map_length List.firstn_map. Qed.
Lemma breshape_map (S T : Type) (g : S -> T) n l : breshape n (List.map g l) = List.map (List.map g) (breshape n l).
Proof.
rewrite /breshape List.map_length List.map_map; apply: List.map_ext => i; by rewrite List.skipn_map List.firstn_map.
Qed.
Lemma combine_maps (S S' T T' : Type) (g : S -> S') (h : T -> T') x y : combine (List.map g x) (List.map h y) = List.map (fun p => (g (fst p), h (snd p))) (combine x y).
Proof. by elim: x y => [|u x IH] [|v y] //=; rewrite IH. Qed.
End Blocks.

Lemma filter_unit_free lo hi n : unit_free (Some (l_cod_filter lo hi n)).
Proof.
move=> c d line rows rows' Hc Hd /entrywise_scale ->; rewrite /l_cod_filter /cod_filter; congr (bind _ _).
rewrite /value List.map_length; case: (check _ _) => //= _.
rewrite !breshape_map !butlast_map combine_maps mapM_map.
rewrite (mapM_ext _ (fun p => l_cod (fst p) (snd p))); last by move=> p _ /=; exact: cod_scale.
case: (mapM _ _) => //= tmp; rewrite !List.skipn_map cod_scale //.
Qed.
