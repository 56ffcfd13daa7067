(** Other units of the channels, from the recordings to the results. *)
From Coq Require Import Reals Lra.
From Coquelicot Require Import Complex.
From mathcomp Require Import all_ssreflect all_algebra.
From Verif Require Import CField.
From Verif Require Import Base BaseLemmas Arith TagsModel SyncModel SetModel FourierModel MestModel SpecMest WeightModel RobustModel BiModel
  SimProofs FullModel SpecFull UtilsModel SpecUtils UtilsProofs WholeModel WholeScale WholeUnits SpecWhole WholeImpedance WholeFourier.
Set Implicit Arguments.
Unset Strict Implicit.
Unset Printing Implicit Defensive.
Import GRing.Theory.
Local Open Scope ring_scope.

Lemma library_ok ws : library ws -> exists wl, ws = weightings listW wl /\ library_weights wl.
Proof. by []. Qed.

Lemma dfun_unit d idx i : dfun (List.map d idx) i = unit_of d idx i.
Proof. rewrite /dfun /unit_of; elim: idx i => [|c idx IH] [|i] //=; exact: IH. Qed.

Lemma div_C (x y : C) : x / y = Cdiv x y.
Proof.
rewrite -[x / y]/(Cmult x (Cinvs y)) /Cinvs /Cdiv; case: eqP => // ->; congr Cmult.
by rewrite /Cinv /=; apply: injective_projections => /=; rewrite /Rdiv ?Ropp_0 Rmult_0_l.
Qed.
Lemma combine_nth (S T : Type) (g : S -> C) (us : list S) (t : list T) i c row : nth_error us i = Some c -> nth_error t i = Some row ->
  nth_error (combine (List.map g us) t) i = Some (g c, row).
Proof.
elim: us t i => [|u us IH] [|r t] [|i] //=; last exact: IH.
by case=> -> [->].
Qed.
Lemma table_spec (d : nat -> C) us vs t : size us = size t ->
  entrywise (fun i j x => Cmult (Cdiv (unit_of d us i) (unit_of d vs j)) x) t (scale_table (List.map d us) (List.map d vs) t).
Proof.
move=> L; split; first by rewrite /scale_table List.map_length List.combine_length List.map_length -[List.length us]/(size us) L Nat.min_id.
move=> i row Hr; rewrite /scale_table List.nth_error_map.
have [c Hc] : exists c, nth_error us i = Some c.
  case E: (nth_error us i) => [c|]; first by exists c.
  move/List.nth_error_None: E; rewrite -[List.length us]/(size us) L => H; have : nth_error t i = None by apply/List.nth_error_None. by rewrite Hr.
have -> : nth_error (combine (List.map d us) t) i = Some (d c, row).
  exact: combine_nth.
eexists; split; first by [].
have [S1 S2] := scale_row_spec (fun j => d c / dfun (List.map d vs) j) row.
split=> // j x /S2 ->; rewrite div_C dfun_unit /unit_of Hc; reflexivity.
Qed.

Lemma errors_row (vs : list C) u row n : let out := [seq xmul (Fin (Rdiv (Cmod u) (Cmod (dfun vs q.1)))) q.2 | q <- zip (iota n (size row)) row] in
  List.length out = List.length row /\ forall j x, nth_error row j = Some x -> nth_error out j = Some (xmul (Fin (Rdiv (Cmod u) (Cmod (dfun vs (n + j)%nat)))) x).
Proof.
move=> out; rewrite /out {out}; elim: row n => [|y row IH] n; first by split=> // -[|j].
cbn [size iota zip seq.map List.length]; have [IH1 IH2] := IH (S n); split; first by rewrite IH1.
case=> [|j] x; cbn [nth_error]; first by case=> ->; rewrite addn0.
by move/IH2 => ->; rewrite addSnnS.
Qed.
Lemma errors_spec (d : nat -> C) us vs t : size us = size t ->
  entrywise (fun i j x => xmul (Fin (Rdiv (Cmod (unit_of d us i)) (Cmod (unit_of d vs j)))) x) t (scale_errors (List.map d us) (List.map d vs) t).
Proof.
move=> L; split; first by rewrite /scale_errors List.map_length List.combine_length List.map_length -[List.length us]/(size us) L Nat.min_id.
move=> i row Hr; rewrite /scale_errors List.nth_error_map.
have [c Hc] : exists c, nth_error us i = Some c.
  case E: (nth_error us i) => [c|]; first by exists c.
  move/List.nth_error_None: E; rewrite -[List.length us]/(size us) L => H; have : nth_error t i = None by apply/List.nth_error_None. by rewrite Hr.
have -> : nth_error (combine (List.map d us) t) i = Some (d c, row).
  exact: combine_nth.
eexists; split; first by [].
have [S1 S2] := errors_row (List.map d vs) (d c) row 0.
split=> // j x /S2; cbn [fst snd] => ->; by rewrite dfun_unit /unit_of Hc.
Qed.

Lemma result_spec d es bs rs r : rows_ok es bs r -> result_changed d es bs rs r (change_result d es bs rs r).
Proof.
move=> [Hz [He HT]]; rewrite /result_changed /change_result /=.
split; first by case: (ir_z _ _) Hz => //= z Lz; apply: table_spec.
split; first by case: (ir_err _ _) He => //= z Lz; apply: errors_spec.
split; first by case: (ir_T _ _) HT => //= z Lz; apply: table_spec.
done.
Qed.

Section Whole.
Variables (fo : fopts) (a : arguments) (X X' : recordings) (d : R -> nat -> C) (es bs rs : list nat).
Hypotheses (Wa : library (ia_weights a)) (Wr : match ia_remote_weights a with None => True | Some l => library l end).
Hypotheses (Pa : unit_free (ia_prefilter a)) (Pr : unit_free (ia_remote_prefilter a)).
Hypotheses (Hd : forall f c, d f c <> RtoC 0).
Hypotheses (He : t_get (ss_tags X) (ia_elec a) = Ok es) (Hb : t_get (ss_tags X) (ia_mag a) = Ok bs).
Hypothesis (Hr : match remote_name a with None => rs = [::] | Some r => t_get (ss_tags X) r = Ok rs end).

Lemma one_changed f h h' : recordings_changed f (d f) X X' ->
  fst (impedance_one listU (coefficients fo) a X' f h') = rmap (change_result (d f) es bs rs) (fst (impedance_one listU (coefficients fo) a X f h)) /\
  forall r, fst (impedance_one listU (coefficients fo) a X f h) = Ok r -> rows_ok es bs r.
Proof.
move=> HX; have Ht := proj1 HX; have [wl [Ew Lw]] := Wa.
rewrite /impedance_one Ht He Hb /=.
have -> : (match remote_name a with None => Ok [::] | Some r => t_get (ss_tags X) r end) = Ok rs by case: (remote_name a) Hr => [r|] ->.
rewrite /= (coefficients_changed fo HX); case: (coefficients fo X f) => [[coeffs w]|x] /=; last by split=> // r [<-].
exact: (@coeffs_scale a wl Ew Lw Wr Pa Pr (d f) X X' es bs rs (@Hd f) Ht He Hb Hr coeffs w h h' (windows_changed w HX)).
Qed.

Definition change_each (l : list R) (l' : list result) : list result := List.map (fun p => change_result (d (fst p)) es bs rs (snd p)) (combine l l').
Lemma results_changed l h h' : (forall f, List.In f l -> recordings_changed f (d f) X X') ->
  fst (impedance_results listU (coefficients fo) a X' l h') = rmap (change_each l) (fst (impedance_results listU (coefficients fo) a X l h)) /\
  forall r, fst (impedance_results listU (coefficients fo) a X l h) = Ok r -> List.length r = List.length l /\ List.Forall (rows_ok es bs) r.
Proof.
elim: l h h' => [|f l IH] h h' H /=; first by split=> // r [<-].
have [] := @one_changed f h h' (H f (or_introl erefl)).
case: (impedance_one listU (coefficients fo) a X' f h') => r' s'; case: (impedance_one listU (coefficients fo) a X f h) => r s /= -> O.
case: r O => [r|x] O //=; have {O} := O _ erefl => O.
have [] := IH s s' (fun f i => H f (or_intror i)).
case: (impedance_results listU (coefficients fo) a X' l s') => q' t'; case: (impedance_results listU (coefficients fo) a X l s) => q t /= ->.
case: q => [q|x] //= Q; split=> // _ [<-]; have [Q1 Q2] := Q _ erefl; split; [by rewrite /= Q1|exact: List.Forall_cons].
Qed.

Lemma shapes_changed l r : List.length r = List.length l -> List.Forall (rows_ok es bs) r ->
  List.map (fun r => arr_shape (rows_shape listU) (ir_z listU r)) (change_each l r) = List.map (fun r => arr_shape (rows_shape listU) (ir_z listU r)) r /\
  List.map (fun r => arr_shape (u_eshape listK listU) (ir_err listU r)) (change_each l r) = List.map (fun r => arr_shape (u_eshape listK listU) (ir_err listU r)) r /\
  List.map (fun r => arr_shape (rows_shape listU) (ir_T listU r)) (change_each l r) = List.map (fun r => arr_shape (rows_shape listU) (ir_T listU r)) r.
Proof.
have TS us vs t : size us = size t -> rows_shape (k := listK) listU (scale_table us vs t) = rows_shape (k := listK) listU t.
  rewrite /rows_shape /scale_table List.map_length List.combine_length => L; rewrite -[List.length us]/(size us) L Nat.min_id.
  by case: us t L => [|u us] [|t0 t] //= _; rewrite size_scale_row.
have ES us vs (t : list (list ext)) : size us = size t -> u_eshape listK listU (scale_errors us vs t) = u_eshape listK listU t.
  rewrite /= /scale_errors => L; congr pair.
    by rewrite -[LHS]/(List.length _) List.map_length List.combine_length -[List.length us]/(size us) L Nat.min_id.
  by case: us t L => [|u us] [|t0 t] //= _; rewrite size_map size_zip size_iota minnn.
elim: r l => [|x r IH] [|f l] //= [L] H; inversion H as [|? ? [Hz [Hx HT]] H']; subst.
have [-> [-> ->]] := IH _ L H'; split; [|split]; congr cons.
- by case: (ir_z listU x) Hz => //= z Lz; apply: TS; rewrite size_map.
- by case: (ir_err listU x) Hx => // z Lz; apply: ES; rewrite size_map.
- by case: (ir_T listU x) HT => //= z Lz; apply: TS; rewrite size_map.
Qed.

Theorem whole_changed l : (forall f, List.In f l -> recordings_changed f (d f) X X') ->
  match whole_impedance fo a X l, whole_impedance fo a X' l with
  | Ok r, Ok r' => List.length r = List.length l /\ List.length r' = List.length l /\
      forall i f x x', nth_error l i = Some f -> nth_error r i = Some x -> nth_error r' i = Some x' -> result_changed (d f) es bs rs x x'
  | Err x, Err x' => x = x'
  | _, _ => False
  end.
Proof.
move=> H; rewrite /whole_impedance /impedance.
have [] := @results_changed l (fresh listW) (fresh listW) H.
case: (impedance_results listU (coefficients fo) a X' l (fresh listW)) => q' t'; case: (impedance_results listU (coefficients fo) a X l (fresh listW)) => q t /= ->.
case: q => [q|x] //= Q; have [L F] := Q _ erefl.
have [-> [-> ->]] := shapes_changed L F.
case: (stack _) => //= _; case: (stack _) => //= _; case: (stack _) => //= _.
split=> //; split; first by rewrite /change_each List.map_length List.combine_length L Nat.min_id.
move=> i f x x' Hf Hx; rewrite /change_each List.nth_error_map.
have -> : nth_error (combine l q) i = Some (f, x).
  clear -Hf Hx; elim: l q i Hf Hx => [|u us IH] [|r t] [|i] //=; [by case=> -> [->]|exact: IH].
case=> <-; apply: result_spec; move/List.Forall_forall: F; apply; exact: (List.nth_error_In _ _ Hx).
Qed.
End Whole.
