(** The frequencies are processed as if each were alone. *)
From Coq Require Import Reals.
From Coquelicot Require Import Complex.
From Verif Require Import Base BaseLemmas Arith TagsModel SyncModel SetModel FourierModel MestModel WeightModel WeightProofs
  BiModel UtilsModel WholeModel SpecAlone AloneProofs.

Section Freq.
Variables (fo : fopts) (a : arguments) (X : recordings) (ws rws : list (option (@weight listK))).
Hypothesis Hw : ia_weights a = weightings listW ws.
Hypothesis Hrw : remote_weights (k := listK) a = weightings listW rws.

Lemma coeffs_history coeffs w (h h' : heap listW) : fst (impedance_coeffs listU a X coeffs w h) = fst (impedance_coeffs listU a X coeffs w h').
Proof.
  unfold impedance_coeffs. cbv zeta. destruct (bind _ _) as [((e & b) & br)|x]; [|reflexivity].
  pose proof (stage1_first a rws Hrw (ia_elec a) b br (length e) h) as E. pose proof (stage1_first a rws Hrw (ia_elec a) b br (length e) h') as E'.
  rewrite with_same in E, E'.
  destruct (stage1 listU a b br (length e) h) as [s h1], (stage1 listU a b br (length e) h') as [s' h1']. cbn [fst] in E, E'. rewrite <- E' in E. subst s'.
  destruct s as [[((T & be) & iv1)|]|x]; [|reflexivity|reflexivity].
  destruct (apply_prefilter listU e be (ia_prefilter a) iv1) as [iv2|x]; [|reflexivity].
  pose proof (estimate_history a e be ws iv2 h1 h1') as G. rewrite <- Hw in G.
  destruct (estimate listU a e be (ia_weights a) iv2 h1) as [r h2], (estimate listU a e be (ia_weights a) iv2 h1') as [r' h2']. cbn [fst] in G. subst r'.
  destruct r; reflexivity.
Qed.

Lemma one_history f (h h' : heap listW) : fst (impedance_one listU (coefficients fo) a X f h) = fst (impedance_one listU (coefficients fo) a X f h').
Proof.
  unfold impedance_one. destruct (bind _ _) as [((e & b) & br)|x]; [|reflexivity]. destruct (coefficients fo X f) as [(coeffs & w)|x]; [|reflexivity].
  apply coeffs_history.
Qed.

Lemma results_each l (h : heap listW) : fst (impedance_results listU (coefficients fo) a X l h) =
  mapM (fun f => fst (impedance_one listU (coefficients fo) a X f (fresh listW))) l.
Proof.
  revert h. induction l as [|f l IH]; intros h; [reflexivity|]. cbn [impedance_results mapM]. rewrite <- (one_history f h).
  destruct (impedance_one listU (coefficients fo) a X f h) as [[r|x] h1]; cbn [fst bind]; [|reflexivity]. rewrite <- (IH h1).
  destruct (impedance_results listU (coefficients fo) a X l h1) as [rs h2]. reflexivity.
Qed.

Lemma stack_raises l e : stack l = Err e -> e = ValueError.
Proof. destruct l as [|[r c] l]; cbn; [discriminate|]. unfold check. destruct (forallb _ _); congruence. Qed.

Lemma freq_alone l :
  match mapM (fun f => whole_impedance fo a X [f]) l with
  | Ok xs => whole_impedance fo a X l = Ok (concat xs) \/ whole_impedance fo a X l = Err ValueError
  | Err e => whole_impedance fo a X l = Err e
  end.
Proof.
  assert (E : mapM (fun f => whole_impedance fo a X [f]) l =
    bind (mapM (fun f => fst (impedance_one listU (coefficients fo) a X f (fresh listW))) l) (fun xs => Ok (map (fun x => [x]) xs))).
  { induction l as [|f l IH]; [reflexivity|]. cbn [mapM]. rewrite whole_one, IH. clear IH. destruct (fst (impedance_one _ _ _ _ _ _)) as [x|e]; [|reflexivity]. cbn [bind].
    match goal with |- context [mapM ?g l] => destruct (mapM g l) as [xs|e] end; reflexivity. }
  rewrite E. unfold whole_impedance, impedance. pose proof (results_each l (fresh listW)) as R.
  destruct (impedance_results listU (coefficients fo) a X l (fresh listW)) as [rs h]. cbn [fst] in *. rewrite <- R.
  destruct rs as [rs|e]; cbn [bind]; [|reflexivity].
  assert (C : concat (map (fun x : @ires listK listU => [x]) rs) = rs) by (clear; induction rs as [|x rs IH]; [reflexivity|cbn; rewrite IH; reflexivity]).
  match goal with |- _ = Ok ?q \/ _ => change q with (concat (map (fun x : @ires listK listU => [x]) rs)) end. rewrite C.
  destruct (stack _) eqn:S1; [cbn [bind]|right; apply stack_raises in S1; subst; reflexivity].
  destruct (stack (map (fun r => arr_shape _ (ir_err listU r)) rs)) eqn:S2; [cbn [bind]|right; apply stack_raises in S2; subst; reflexivity].
  destruct (stack (map (fun r => arr_shape _ (ir_T listU r)) rs)) eqn:S3; [cbn [bind]|right; apply stack_raises in S3; subst; reflexivity].
  left. reflexivity.
Qed.
End Freq.

Lemma frequencies_alone fo a X l : weight_objects (ia_weights a) -> match ia_remote_weights a with None => True | Some l => weight_objects l end ->
  match mapM (fun f => whole_impedance fo a X [f]) l with
  | Ok xs => whole_impedance fo a X l = Ok (concat xs) \/ whole_impedance fo a X l = Err ValueError
  | Err e => whole_impedance fo a X l = Err e
  end.
Proof. intros HW HR. destruct (weights_of_remote a HW HR) as (rws & Hrw). destruct HW as (ws & Hw). exact (freq_alone fo a X ws rws Hw Hrw l). Qed.
