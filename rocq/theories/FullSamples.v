(** A concrete run of the complete estimation: one input, four rows. *)
From Coq Require Import Reals Lra.
From Coquelicot Require Import Complex.
From mathcomp Require Import all_ssreflect all_algebra.
From Verif Require Import WlseModel WlseProofs CField.
From Verif Require Import Base Arith MestModel WeightModel RobustModel BiModel RobustSamples FullModel SpecFull FullProofs ExactProofs.
Set Implicit Arguments.
Unset Strict Implicit.
Unset Printing Implicit Defensive.
Import GRing.Theory.
Local Open Scope ring_scope.

Definition oneR : 'rV[C]_1 := 1.
Definition fourB : list 'rV[C]_1 := [oneR; oneR; oneR; oneR].
Definition fourE : list C := [RtoC 1; RtoC (-1); RtoC 2; RtoC (-2)].
Definition fullO : opts (fullK 1) := mkOpts (fullK 1) (Rdiv 1 1000) 5 (Rdiv 1 1000).

Lemma four_weighted (u v : R) : Rlt R0 (Rplus u v) ->
  wlse_rows cjC fourE fourB (Some [RtoC u; RtoC u; RtoC v; RtoC v]) = Some 0.
Proof.
move=> P; rewrite (@wlse_rows_n _ _ 4) //; apply/wlse_iff; split.
  rewrite unitmxE det_mx11 unitfE /normal mxE !big_ord_recl big_ord0.
  rewrite /dotdiag /weights /omap /obind /oapp mul_diag_mx !mxE.
  rewrite /= rmorph1 !mulr1 !mul1r addr0; apply/eqP => E; move: (f_equal Re E) => /=; lra.
apply/matrixP => i j; rewrite !ord1 mulmx0 /rhs mxE mxE !big_ord_recl big_ord0.
rewrite /dotdiag /weights /omap /obind /oapp mul_diag_mx !mxE /= rmorph1 !mul1r addr0.
by apply: injective_projections => /=; ring.
Qed.

Lemma four_plain : wlse_rows cjC fourE fourB None = Some 0.
Proof.
rewrite (@wlse_rows_n _ _ 4) //; apply/wlse_iff; split.
  rewrite unitmxE det_mx11 unitfE /normal mxE !big_ord_recl big_ord0 /dotdiag /weights /= !mxE.
  rewrite /= rmorph1 !mulr1 addr0; apply/eqP => E; move: (f_equal Re E) => /=; lra.
apply/matrixP => i j; rewrite !ord1 mulmx0 /rhs mxE mxE !big_ord_recl big_ord0.
rewrite /dotdiag /weights /= !mxE /= rmorph1 !mul1r addr0.
by apply: injective_projections => /=; ring.
Qed.

Lemma four_resid : full_resid fourE fourB 0 = four.
Proof. by rewrite /full_resid /= !mulmx0 !mxE !subr0. Qed.

Lemma four_ls : solve (k := fullK 1) fourE fourB None = Ok 0.
Proof. by rewrite /solve /= /full_wlse /= four_plain. Qed.

Lemma four_robust : solve (k := fullK 1) fourE fourB (Some [Fin R1; Fin R1; Fin four_weight; Fin four_weight]) = Ok 0.
Proof. rewrite /solve /= /full_wlse /= four_weighted //; rewrite /four_weight; lra. Qed.

Lemma four_eval it st : eval_weight (k := fullK 1) (o_eps fullO) (call (fullW 1) (Huber (k := fullK 1) (Rdiv 3 2))) it four fourE fourB [] st
  = (Ok (Some [Fin R1; Fin R1; Fin four_weight; Fin four_weight], []), st).
Proof.
have E : call (fullW 1) (Huber (k := fullK 1) (Rdiv 3 2)) it four fourE fourB [] st = (Ok (Some [Fin R1; Fin R1; Fin four_weight; Fin four_weight]), st).
  by rewrite -[[Fin R1; _; _; _]]four_huber.
rewrite /eval_weight; have -> : set_at four [] (k_nan (fullK 1)) = Ok four by [].
rewrite E; cbn [bind].
have -> : set_at [Fin R1; Fin R1; Fin four_weight; Fin four_weight] [] (k_zero (fullK 1)) = Ok [Fin R1; Fin R1; Fin four_weight; Fin four_weight] by [].
cbn [bind]; congr (Ok (_, _), _).
rewrite /nonzero /= /Rleb /four_weight; do ![case: Rle_dec; [move=> H; exfalso; move: H; rewrite Rabs_pos_eq; lra|move=> _]].
by [].
Qed.

Lemma four_step it fuel prev st : iterate (k := fullK 1) fullO (call (fullW 1) (Huber (k := fullK 1) (Rdiv 3 2))) fourE fourB (S fuel) it four [] prev st
  = (if converged (k := fullK 1) (o_tol fullO) prev (full_wres four (Some [Fin R1; Fin R1; Fin four_weight; Fin four_weight])) then (Ok (0, []), st)
     else iterate (k := fullK 1) fullO (call (fullW 1) (Huber (k := fullK 1) (Rdiv 3 2))) fourE fourB fuel (S it) four []
            (Some (full_wres four (Some [Fin R1; Fin R1; Fin four_weight; Fin four_weight]))) st).
Proof.
cbn [iterate]; rewrite four_eval four_robust.
by change (k_resid (fullK 1) fourE fourB 0) with (full_resid fourE fourB 0); rewrite four_resid.
Qed.

Lemma four_wres : full_wres four (Some [Fin R1; Fin R1; Fin four_weight; Fin four_weight]) = Rplus 2 (Rmult 8 four_weight).
Proof.
rewrite /full_wres /= !Cmod_R (Rabs_pos_eq 1) ?(Rabs_pos_eq 2) ?(Rabs_left (-1)) ?(Rabs_left (-2)); try lra.
rewrite Rabs_pos_eq /four_weight; lra.
Qed.

Lemma four_run : fst (transfer_function (k := fullK 1) fullO [fourE] fourB (weightings (fullW 1) [None; Some (Huber (k := fullK 1) (Rdiv 3 2))]) None IvNone (fresh (fullW 1)))
  = Ok [(Some 0, [])].
Proof.
rewrite /transfer_function; cbn [weightings List.map option_map List.length].
have -> : iv_each 1 IvNone = Ok [Ok []] by [].
cbn [bind forallb List.length Nat.eqb andb check repeat each_output chain eliminate negb m_estimate].
have -> : (List.length fourE =? List.length fourB) && true = true by [].
cbn [bind check eliminate].
have L : ~~ (List.length fourE =? 0) = true by [].
rewrite L; cbn [bind check]; rewrite four_ls; cbn [bind eliminate]; rewrite L; cbn [bind check].
change (Z.to_nat (o_maxit fullO)) with 5%nat.
change (k_resid (fullK 1) fourE fourB 0) with (full_resid fourE fourB 0); rewrite four_resid.
rewrite four_step; cbn [converged]; rewrite four_step.
have -> : converged (k := fullK 1) (o_tol fullO) (Some (full_wres four (Some [Fin R1; Fin R1; Fin four_weight; Fin four_weight])))
  (full_wres four (Some [Fin R1; Fin R1; Fin four_weight; Fin four_weight])) = true; last by vm_compute.
rewrite four_wres /= /Reqb /Rltb; case: Req_EM_T => [H|_]; first by exfalso; move: H; rewrite /four_weight; lra.
case: Rlt_dec => // H; exfalso; apply: H; rewrite Rminus_eq_0 /Rdiv Rmult_0_l Rabs_R0; lra.
Qed.

Lemma four_rank : full_rank fourB.
Proof. by apply/gram; have := four_plain; rewrite /wlse_rows => /wlse_iff [U _]. Qed.

(** three rows of four fit the estimate 3 *)
Definition three : 'cV[C]_1 := (RtoC 3)%:M.
Lemma one_three : (oneR *m three) 0 0 = RtoC 3.
Proof. by rewrite /oneR mul1mx /three mxE /= mulr1n. Qed.
Definition mostE : list C := [RtoC 3; RtoC 3; RtoC 7; RtoC 3].
Lemma most_exact : mostly_exact fourB mostE three.
Proof.
exists [(RtoC 3, oneR); (RtoC 3, oneR); (RtoC 3, oneR)], [(RtoC 7, oneR)]; split; last split.
- do 2 apply: perm_skip; exact: perm_swap.
- rewrite /=; lia.
- by repeat constructor; rewrite /= one_three.
Qed.
