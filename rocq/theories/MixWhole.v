(** Combined channels: the determination filter, and whole estimates. *)
From Coq Require Import Reals Lra.
From Coquelicot Require Import Complex.
From mathcomp Require Import all_ssreflect all_algebra.
From Verif Require Import WlseModel WlseProofs CField.
From Verif Require Import Base BaseLemmas Arith TagsModel SyncModel SetModel FourierModel MestModel SpecMest SpecMestAll WeightModel RobustModel RobustWeights BiModel ExtLemmas
  SimProofs SimRows FullModel SpecFull FullProofs PrefilterModel UtilsModel SpecUtils UtilsProofs WholeModel WholeScale WholeUnits SpecWhole WholeImpedance WholeChange WholeCod
  SpecRemote SpecMixed MixScale MixFourier MixImpedance MixRemote.
Set Implicit Arguments.
Unset Strict Implicit.
Unset Printing Implicit Defensive.
Import GRing.Theory.
Local Open Scope ring_scope.

Lemma cod_mixed q M c l : c <> RtoC 0 -> mix_matrix q M \in unitmx -> List.Forall (fun p : C * list C => size p.2 = q) l ->
  l_cod (List.map (Cmult c) (List.map fst l)) (List.map (mix_row q M) (List.map snd l)) = l_cod (List.map fst l) (List.map snd l).
Proof.
move=> Hc U F; have [G1 G2] := @good_mix q M c U (fun=> 0).
have E : List.map (Cmult c) (List.map fst l) = List.map (mix_out q c (fun=> 0)) l.
  rewrite List.map_map; apply: List.map_ext => p; rewrite /mix_out big1 ?addr0 // => j _; by rewrite mul0r.
have L1 : l_wlse (List.map (Cmult c) (List.map fst l)) (List.map (mix_row q M) (List.map snd l)) None = rmap (mix_est q M c (fun=> 0)) (l_wlse (List.map fst l) (List.map snd l) None).
  by rewrite E; exact: G1.
have L2 z : l_resid (List.map (Cmult c) (List.map fst l)) (List.map (mix_row q M) (List.map snd l)) (mix_est q M c (fun=> 0) z)
  = List.map (option_map (Cmult c)) (l_resid (List.map fst l) (List.map snd l) z).
  by rewrite E; exact: G2.
rewrite /l_cod L1; case: (l_wlse _ _ _) => //= z; rewrite L2 squares_scale energy_scale.
have Nc : Cmod c <> R0 by move/Cmod_eq_0.
set e := List.map fst l.
congr Ok; case: (Req_EM_T (energy_of e) R0) => He; case: (Req_EM_T _ R0) => He' //.
- by case: He'; rewrite He Rmult_0_r.
- case: (Rmult_integral _ _ He') => // /Rmult_integral; by case.
- congr Some; congr sqrt; field; by split.
Qed.

Lemma Forall_firstn (T : Type) (P : T -> Prop) k l : List.Forall P l -> List.Forall P (List.firstn k l).
Proof. by move=> F; elim: F k => [|x l' H _ IH] [|k] //=; constructor. Qed.
Lemma Forall_skipn (T : Type) (P : T -> Prop) k l : List.Forall P l -> List.Forall P (List.skipn k l).
Proof. by move=> F; elim: F k => [|x l' H F' IH] [|k] //=; constructor. Qed.

Lemma filter_combination_free lo hi n : combination_free (Some (l_cod_filter lo hi n)).
Proof.
move=> q M c line rows rows' Hc HM Ll [_ F1] [L2 F2] H.
have U := invertible_unit HM.
have -> : rows' = List.map (mix_row q M) rows.
  apply: (@eq_from_nth _ [::]); first by rewrite -[RHS]/(List.length _) List.map_length -L2.
  move=> t; rewrite -[size rows']/(List.length rows') L2 => Ht; rewrite [RHS](nth_map [::]) //.
  have St : size (seq.nth [::] rows' t) = q.
    move/List.Forall_forall: F2; apply; rewrite -nthE; apply: List.nth_In; rewrite L2; exact/ltP.
  apply: (@eq_from_nth _ 0); first by rewrite size_mix_row.
  move=> i; rewrite St => Hi; rewrite nth_mix_row //; have := H t i (ltP Ht) (ltP Hi).
  rewrite csum_big /at_ij !nthE => ->; apply: eq_bigr => j _; by rewrite !nthE.
pose l := combine line rows.
have [E1 E2] : List.map fst l = line /\ List.map snd l = rows.
  by rewrite /l; elim: (line) (rows) Ll => [|x x' IH] [|y y'] //= [L]; have [-> ->] := IH _ L.
have Fl : List.Forall (fun p : C * list C => size p.2 = q) l by have := F1; rewrite -{1}E2 => /List.Forall_map.
rewrite -{}E1 -{}E2 /l_cod_filter /cod_filter; congr (bind _ _).
rewrite /value !List.map_length; case: (check _ _) => //= _.
rewrite !List.map_map !breshape_map !butlast_map.
have CM (S T W : Type) (f1 : S -> T) (f2 : S -> W) x : combine (List.map f1 x) (List.map f2 x) = List.map (fun z => (f1 z, f2 z)) x by elim: x => //= u x ->.
rewrite !CM !mapM_map.
rewrite (mapM_ext _ (fun i => l_cod (List.map fst (List.firstn n (List.skipn (i * n)%coq_nat l))) (List.map snd (List.firstn n (List.skipn (i * n)%coq_nat l))))); last first.
  move=> i _ /=; rewrite -(List.map_map fst) -(List.map_map snd); apply: cod_mixed => //; apply: Forall_firstn; exact: Forall_skipn.
cbn [fst snd]; case: (mapM _ _) => //= tmp; rewrite !List.skipn_map -(List.map_map fst) -(List.map_map snd) cod_mixed //; exact: Forall_skipn.
Qed.

(** ** Whole estimates *)
Section Whole.
Variables (fo : fopts) (a : arguments) (X X' : recordings) (R1 : R -> result -> result -> Prop).

Lemma results_both l h h' :
  (forall f, List.In f l -> forall h h', both (R1 f) (fst (impedance_one listU (coefficients fo) a X f h)) (fst (impedance_one listU (coefficients fo) a X' f h'))) ->
  both (fun r r' => List.length r = List.length l /\ List.length r' = List.length l /\
     forall i f x x', nth_error l i = Some f -> nth_error r i = Some x -> nth_error r' i = Some x' -> R1 f x x')
   (fst (impedance_results listU (coefficients fo) a X l h)) (fst (impedance_results listU (coefficients fo) a X' l h')).
Proof.
elim: l h h' => [|f l IH] h h' H /=; first by do 2!split=> //; case.
have := H f (or_introl erefl) h h'.
case: (impedance_one listU (coefficients fo) a X' f h') => r' s'; case: (impedance_one listU (coefficients fo) a X f h) => r s /=.
case: r => [r|x]; case: r' => [r'|x'] //= O.
have := IH s s' (fun f i => H f (or_intror i)).
case: (impedance_results listU (coefficients fo) a X' l s') => p' t'; case: (impedance_results listU (coefficients fo) a X l s) => p t /=.
case: p => [p|x]; case: p' => [p'|x'] //= [L1 [L2 Q]]; rewrite L1 L2; do 2!split=> //.
by case=> [|i] f' x x' /=; [case=> <- [<-] [<-]|exact: Q].
Qed.

Definition same_shapes (r r' : result) : Prop :=
  arr_shape (rows_shape listU) (ir_z listU r') = arr_shape (rows_shape listU) (ir_z listU r) /\
  arr_shape (u_eshape listK listU) (ir_err listU r') = arr_shape (u_eshape listK listU) (ir_err listU r) /\
  arr_shape (rows_shape listU) (ir_T listU r') = arr_shape (rows_shape listU) (ir_T listU r).

Lemma whole_both l : (forall f r r', R1 f r r' -> same_shapes r r') ->
  (forall f, List.In f l -> forall h h', both (R1 f) (fst (impedance_one listU (coefficients fo) a X f h)) (fst (impedance_one listU (coefficients fo) a X' f h'))) ->
  both (fun r r' => List.length r = List.length l /\ List.length r' = List.length l /\
     forall i f x x', nth_error l i = Some f -> nth_error r i = Some x -> nth_error r' i = Some x' -> R1 f x x')
   (whole_impedance fo a X l) (whole_impedance fo a X' l).
Proof.
move=> Hs H; rewrite /whole_impedance /impedance.
have := @results_both l (fresh listW) (fresh listW) H.
case: (impedance_results listU (coefficients fo) a X' l (fresh listW)) => p' t'; case: (impedance_results listU (coefficients fo) a X l (fresh listW)) => p t /=.
case: p => [p|x]; case: p' => [p'|x'] //= [L1 [L2 Q]].
have EM (T : Type) (u : result -> T) : (forall r r', same_shapes r r' -> u r' = u r) -> List.map u p' = List.map u p.
  move=> Hu; elim: l p p' L1 L2 Q {H} => [|f l IH] [|x p] [|x' p'] //= [L1] [L2] Q.
  by rewrite (IH _ _ L1 L2 (fun i => Q (S i))) (Hu x x') //; apply: (Hs f); exact: (Q O).
rewrite (EM _ (fun r => arr_shape (rows_shape listU) (ir_z listU r))); last by move=> r r' [].
rewrite (EM _ (fun r => arr_shape (u_eshape listK listU) (ir_err listU r))); last by move=> r r' [_ []].
rewrite (EM _ (fun r => arr_shape (rows_shape listU) (ir_T listU r))); last by move=> r r' [_ []].
by case: (stack _) => //= _; case: (stack _) => //= _; case: (stack _).
Qed.
End Whole.

Lemma shape_table p q (z z' : list (list C)) : table_of p q z -> table_of p q z' -> rows_shape (k := listK) listU z' = rows_shape (k := listK) listU z.
Proof.
move=> [L F] [L' F']; rewrite /rows_shape L L'; case: z L F => [|x z] L F; case: z' L' F' => [|x' z'] L' F' //=; try by rewrite -L in L'.
by inversion F as [|? ? H _]; inversion F' as [|? ? H' _]; subst; congr (_, _); etransitivity; [exact: H'|exact: esym].
Qed.
Lemma shape_errors p q (z z' : list (list ext)) : table_of p q z -> table_of p q z' -> u_eshape listK listU z' = u_eshape listK listU z.
Proof.
move=> [L F] [L' F'] /=.
have -> : size z = p by exact: L.
have -> : size z' = p by exact: L'.
case: z L F => [|x z] L F; case: z' L' F' => [|x' z'] L' F' //=; try by rewrite -L in L'.
by inversion F as [|? ? H _]; inversion F' as [|? ? H' _]; subst; congr (_, _); etransitivity; [exact: H'|exact: esym].
Qed.

Lemma local_shapes es bs M c Z0 r r' : local_result es bs M c Z0 r r' -> same_shapes r r'.
Proof.
move=> [Hz [He [HT _]]]; split; [|split; last by rewrite HT].
- by case: (ir_z listU r) Hz => [z|m k]; case: (ir_z listU r') => [z'|m' k'] //=; [move=> [T1 [T2 _]]; exact: shape_table T1 T2|move=> [-> ->]].
- by case: (ir_err listU r) He => [z|m k]; case: (ir_err listU r') => [z'|m' k'] //; [move=> [T1 [T2 _]]; exact: shape_errors T1 T2|move=> [-> ->]].
Qed.
Lemma remote_shapes bs rs M r r' : remote_result bs rs M r r' -> same_shapes r r'.
Proof.
move=> [Hz [He [_ HT]]]; split; [by rewrite Hz|split; first by rewrite He].
by case: (ir_T listU r) HT => [z|m k]; case: (ir_T listU r') => [z'|m' k'] //=; [move=> [T1 [T2 _]]; exact: shape_table T1 T2|move=> [-> ->]].
Qed.

Theorem whole_local fo a X X' es bs n (A : R -> nat -> nat -> C) (M : R -> nat -> nat -> C) (c : R -> nat -> C) (Z0 : R -> nat -> nat -> C) l :
  library (ia_weights a) -> remote_name a = None -> t_get (ss_tags X) (ia_elec a) = Ok es -> t_get (ss_tags X) (ia_mag a) = Ok bs -> bs <> [::] ->
  (forall f, List.In f l -> recordings_mixed f n (A f) X X' /\ invertible (List.length bs) (M f) /\ (forall i, c f i <> RtoC 0) /\
     inputs_mixed n (A f) bs (M f) /\ outputs_mixed n (A f) es bs (c f) (Z0 f) /\
     (ia_prefilter a = None \/ combination_free (ia_prefilter a) /\ forall i j, Z0 f i j = RtoC 0)) ->
  both (fun r r' => List.length r = List.length l /\ List.length r' = List.length l /\
     forall i f x x', nth_error l i = Some f -> nth_error r i = Some x -> nth_error r' i = Some x' -> local_result es bs (M f) (c f) (Z0 f) x x')
   (whole_impedance fo a X l) (whole_impedance fo a X' l).
Proof.
move=> Wa Hr Te Tb Hb H; apply: (whole_both (R1 := fun f => local_result es bs (M f) (c f) (Z0 f))) => [f r r'|f Hf h h']; first exact: local_shapes.
have [HX [HM [Hc [HA [HE HP]]]]] := H f Hf; have Ht := proj1 HX.
rewrite /impedance_one Ht Te Tb Hr /=.
have [[x [-> ->]]|[cols [w [-> ->]]]] := coefficients_mixed fo HX; first by do 3!split=> //.
exact: (@coeffs_local n (A f) (M f) es bs (c f) (Z0 f) Hb HM HA HE Hc a X X' Wa HP Ht Te Tb Hr cols w h h' (windows_mixed w HX)).
Qed.

Theorem whole_remote fo a X X' es bs rs r n (A : R -> nat -> nat -> C) (M : R -> nat -> nat -> C) l :
  library (ia_weights a) -> (match ia_remote_weights a with None => True | Some l => library l end) -> combination_free (remote_prefilter a) ->
  t_get (ss_tags X) (ia_elec a) = Ok es -> t_get (ss_tags X) (ia_mag a) = Ok bs -> remote_name a = Some r -> t_get (ss_tags X) r = Ok rs -> rs <> [::] ->
  (forall f, List.In f l -> recordings_mixed f n (A f) X X' /\ invertible (List.length rs) (M f) /\
     inputs_mixed n (A f) rs (M f) /\ kept n (A f) es /\ kept n (A f) bs) ->
  both (fun r r' => List.length r = List.length l /\ List.length r' = List.length l /\
     forall i f x x', nth_error l i = Some f -> nth_error r i = Some x -> nth_error r' i = Some x' -> remote_result bs rs (M f) x x')
   (whole_impedance fo a X l) (whole_impedance fo a X' l).
Proof.
move=> Wa Wr Pr Te Tb Hr Tr Hs H; apply: (whole_both (R1 := fun f => remote_result bs rs (M f))) => [f x x'|f Hf h h']; first exact: remote_shapes.
have [HX [HM [HA [He Hb]]]] := H f Hf; have Ht := proj1 HX.
rewrite /impedance_one Ht Te Tb Hr /= Tr /=.
have [[x [-> ->]]|[cols [w [-> ->]]]] := coefficients_mixed fo HX; first by do 3!split=> //.
exact: (@coeffs_remote n (A f) (M f) es bs rs Hs HM HA He Hb a X X' r Wa Wr Pr Ht Te Tb Hr Tr cols w h h' (windows_mixed w HX)).
Qed.
