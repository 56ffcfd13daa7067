(** Combined channels, from the coefficients to the results. *)
From Coq Require Import Reals Lra.
From Coquelicot Require Import Complex.
From mathcomp Require Import all_ssreflect all_algebra.
From Verif Require Import WlseModel WlseProofs CField.
From Verif Require Import Base BaseLemmas Arith TagsModel SyncModel SetModel FourierModel MestModel SpecMest SpecMestAll WeightModel RobustModel RobustWeights BiModel ExtLemmas
  SimProofs FullModel SpecFull FullProofs PrefilterModel UtilsModel SpecUtils UtilsProofs WholeModel WholeScale WholeUnits SpecWhole WholeImpedance SpecRemote SpecMixed MixScale MixFourier.
Set Implicit Arguments.
Unset Strict Implicit.
Unset Printing Implicit Defensive.
Import GRing.Theory.
Local Open Scope ring_scope.

(** ** Solutions *)
Lemma mix_solves q M c z0 z j : mix_matrix q M \in unitmx -> is_true (leq (S j) q) ->
  \sum_(k < q) seq.nth 0 (mix_est q M c z0 z) k * M k j = c * seq.nth 0 z j + z0 j.
Proof.
move=> U Hj.
have E := mulKVmx U (c *: column_of q z + \col_j z0 (nat_of_ord j)).
move/(congr1 (fun m : 'cV[C]_q => m (Ordinal Hj) 0)): E; rewrite !mxE /= => <-; apply: eq_bigr => k _.
by rewrite /mix_est nth_values [mix_matrix _ _ _ _]mxE mulrC.
Qed.
Lemma mix_dot q M c z0 z r : mix_matrix q M \in unitmx ->
  \sum_(k < q) seq.nth 0 (mix_est q M c z0 z) k * seq.nth 0 (mix_row q M r) k = \sum_(j < q) (c * seq.nth 0 z j + z0 j) * seq.nth 0 r j.
Proof.
move=> U; under eq_bigr => k _ do rewrite nth_mix_row // big_distrr.
rewrite exchange_big /=; apply: eq_bigr => j _; rewrite -(@mix_solves q M) // big_distrl /=.
by apply: eq_bigr => k _; rewrite mulrA.
Qed.

Lemma invertible_unit q M : invertible q M -> mix_matrix q M \in unitmx.
Proof.
move=> [N H].
suff : (mix_matrix q M)^T \in unitmx by rewrite unitmx_tr.
apply: (proj1 (mulmx1_unit (B := \matrix_(i, j) N i j) _)); apply/matrixP => i j; rewrite !mxE.
have := H i j (ltP (ltn_ord i)) (ltP (ltn_ord j)); rewrite csum_big => E.
have -> : (i == j)%:R = (if Nat.eqb i j then RtoC 1 else RtoC 0) :> C.
  by rewrite -[Nat.eqb i j]/(nat_of_ord i == nat_of_ord j); case: eqP => [->|Ne]; [rewrite eqxx|case: eqP => // E'; case: Ne; apply: ord_inj].
by rewrite -E; apply: eq_bigr => k _; rewrite !mxE.
Qed.

(** ** Channels *)
Definition picked (cols : list (nat -> C)) (idx : list nat) : list (list C) := List.map (fun c => List.map (fun col => col c) cols) idx.

Lemma pick_lines n idx : (exists x, forall cols, mapM (fun i => nth_res (lines n cols) i) idx = Err x) \/
  forall cols, mapM (fun i => nth_res (lines n cols) i) idx = Ok (picked cols idx).
Proof.
elim: idx => [|i idx IH]; first by right.
case E: (Nat.ltb i n); last by left; exists IndexError => cols /=; rewrite /nth_res nth_lines E.
case: IH => [[x H]|H]; [left; exists x|right] => cols /=; by rewrite {1}/nth_res nth_lines E /= H.
Qed.

Lemma columns_picked cols idx : idx <> [::] -> columns_of (picked cols idx) = size cols.
Proof. by case: idx => // c idx _; rewrite /columns_of /= -[size _]/(List.length _) List.map_length. Qed.
Lemma size_picked cols idx : size (picked cols idx) = size idx.
Proof. exact: List.map_length. Qed.
Lemma entry_picked cols idx i t (col : nat -> C) : nth_error cols t = Some col -> is_true (leq (S i) (size idx)) ->
  entry (picked cols idx) i t = seq.nth 0 (List.map col idx) i.
Proof.
move=> Ht Hi; rewrite /entry /picked (nth_map O) // [RHS](nth_map O) //.
elim: cols t Ht => [|c cols IH] [|t] //=; [by case=> ->|exact: IH].
Qed.
Lemma nth_error_some (T : Type) (l : list T) t : is_true (leq (S t) (size l)) -> exists x, nth_error l t = Some x.
Proof. by case: l => [|x0 l] // H; exists (seq.nth x0 (x0 :: l) t); exact: nth_error_seq. Qed.

Lemma rows_picked cols idx : idx <> [::] -> l_rows (picked cols idx) = List.map (fun col => List.map col idx) cols.
Proof.
move=> Hi; rewrite /l_rows columns_picked //; apply: (@eq_from_nth _ [::]).
  by rewrite size_map size_iota -[RHS]/(List.length _) List.map_length.
move=> t; rewrite size_map size_iota => Ht; rewrite (nth_map O) ?size_iota // nth_iota // add0n.
have [col Hc] := nth_error_some Ht.
have [_ E] := @seq_nth_error _ (fun=> 0) _ _ _ Hc.
rewrite [RHS](nth_map (fun=> 0)) // E -[LHS]/(List.map _ _) /picked List.map_map; apply: List.map_ext => c.
by rewrite (nth_map (fun=> 0)) // E.
Qed.

Section Mixed.
Variables (n : nat) (A M : nat -> nat -> C) (bs : list nat).
Hypotheses (Hbs : bs <> [::]) (HM : mix_matrix (size bs) M \in unitmx) (HA : inputs_mixed n A bs M).
Notation q := (size bs).
Definition bf (col : nat -> C) : list C := List.map col bs.
Lemma size_bf col : size (bf col) = q.
Proof. exact: List.map_length. Qed.

Lemma sum_of_row m col : sum_of bs m col = \sum_(j < q) m j * seq.nth 0 (bf col) j.
Proof.
rewrite /sum_of csum_big; apply: eq_bigr => j _; rewrite -[Cmult _ _]/(m j * _) /bf (nth_map O) //; congr (_ * col _).
by elim: (bs) (nat_of_ord j) => [|b l IH] [|k] //=.
Qed.
Lemma mixed_row col : bf (mixcol n A col) = mix_row q M (bf col).
Proof.
apply: (@eq_from_nth _ 0); first by rewrite size_mix_row size_bf.
move=> i; rewrite size_bf => Hi; rewrite nth_mix_row // /bf (nth_map O) //.
have Ei : nth_error bs i = Some (seq.nth O bs i) := nth_error_seq O Hi.
have := HA Ei col; rewrite csum_big sum_of_row => E; exact: E.
Qed.
Lemma mixed_rows cols : List.map bf (List.map (mixcol n A) cols) = List.map (fun col => mix_row q M (bf col)) cols.
Proof. by rewrite List.map_map; apply: List.map_ext => col; exact: mixed_row. Qed.

(** the matrix of the products of the inputs *)
Lemma gram_mixed cols : gram_n q (picked (List.map (mixcol n A) cols) bs) =
  (mix_matrix q M)^T *m gram_n q (picked cols bs) *m map_mx cjC (mix_matrix q M).
Proof.
apply/matrixP => i j; rewrite !mxE !columns_picked // -[size (List.map _ _)]/(List.length _) List.map_length.
transitivity (\sum_(t < size cols) \sum_(k < q) \sum_(l < q) M i k * (entry (picked cols bs) k t * cjC (entry (picked cols bs) l t)) * cjC (M j l)).
  apply: eq_bigr => t _; have [col Hc] := nth_error_some (ltn_ord t).
  have Hc' : nth_error (List.map (mixcol n A) cols) t = Some (mixcol n A col) by rewrite List.nth_error_map Hc.
  rewrite !(entry_picked Hc') // -!/(bf _) mixed_row !nth_mix_row // rmorph_sum /= big_distrlr /=.
  apply: eq_bigr => k _; apply: eq_bigr => l _; rewrite !(entry_picked Hc) // rmorphM /= -/(bf col).
  by rewrite mulrACA [RHS]mulrAC.
rewrite exchange_big /=.
under eq_bigr => k _ do rewrite exchange_big /=.
rewrite exchange_big /=; apply: eq_bigr => l _.
rewrite mxE big_distrl /=; apply: eq_bigr => k _; rewrite !mxE columns_picked // big_distrr big_distrl /=; by apply: eq_bigr => t _.
Qed.
Lemma gram_mixed_unit cols : (gram_n q (picked (List.map (mixcol n A) cols) bs) \in unitmx) = (gram_n q (picked cols bs) \in unitmx).
Proof. by rewrite gram_mixed !unitmx_mul unitmx_tr HM map_unitmx HM andbT. Qed.

(** the residual *)
Lemma nres_mixed cols c z0 (e : (nat -> C) -> C) z :
  l_nres (picked (List.map (mixcol n A) cols) bs) (List.map (fun col => mix_out q c z0 (e col, bf col)) cols) (mix_est q M c z0 z)
  = Rmult (Cmod c) (l_nres (picked cols bs) (List.map e cols) z).
Proof.
rewrite /l_nres !size_picked -[size (List.map _ _)]/(List.length _) -[size (List.map e _)]/(List.length _) !List.map_length -[List.length _]/(size cols).
set S := \big[Rplus/R0]_(t < _) _; set S' := \big[Rplus/R0]_(t < _) _.
have -> : S = Rmult (Rmult (Cmod c) (Cmod c)) S'.
  rewrite /S /S'; elim/big_rec2: _ => [|t x y _ ->]; first by ring.
  have [col Hc] := nth_error_some (ltn_ord t).
  have Hc' : nth_error (List.map (mixcol n A) cols) t = Some (mixcol n A col) by rewrite List.nth_error_map Hc.
  have [_ En] := @seq_nth_error _ (fun=> 0) _ _ _ Hc.
  have E : seq.nth 0 (List.map (fun col => mix_out q c z0 (e col, bf col)) cols) t - \sum_(j < q) seq.nth 0 (mix_est q M c z0 z) j * entry (picked (List.map (mixcol n A) cols) bs) j t
    = Cmult c (seq.nth 0 (List.map e cols) t - \sum_(j < q) seq.nth 0 z j * entry (picked cols bs) j t).
    under eq_bigr => j _ do rewrite (entry_picked Hc') // -/(bf _) mixed_row.
    rewrite mix_dot // (nth_map (fun=> 0)) // En [seq.nth 0 (List.map e cols) t](nth_map (fun=> 0)) // En.
    under [in RHS]eq_bigr => j _ do rewrite (entry_picked Hc) // -/(bf _).
    rewrite /mix_out /= -[Cmult c _]/(c * _) mulrBr -addrA; congr (_ + _).
    rewrite big_distrr -sumrB /= -sumrN; apply: eq_bigr => j _.
    by rewrite mulrDl opprD addrCA subrr addr0 mulrA.
  rewrite E Cmod_mult; ring.
rewrite sqrt_mult_alt; last by have := Cmod_ge_0 c; nra.
rewrite sqrt_square //; exact: Cmod_ge_0.
Qed.
End Mixed.

Lemma nthE (T : Type) (d : T) l i : List.nth i l d = seq.nth d l i.
Proof. by elim: l i => [|x l IH] [|i] //=. Qed.
Lemma seqE n : List.seq 0 n = iota 0 n.
Proof. by move: O; elim: n => //= n IH m; rewrite IH. Qed.

(** two results of one kind *)
Definition both {T} (R : T -> T -> Prop) (x x' : res T) : Prop :=
  match x, x' with Ok r, Ok r' => R r r' | Err e, Err e' => e' = e | _, _ => False end.

(** the output at position [p.1], channel [p.2], is taken [c] times and gets a sum of the inputs *)
Definition chans (es : list nat) (c : nat -> C) (Z0 : nat -> nat -> C) : list (chan (nat -> C)) :=
  List.map (fun p => ((fun col : nat -> C => col p.2), (c p.1, Z0 p.1))) (combine (List.seq 0 (List.length es)) es).

Lemma size_chans es c Z0 : List.length (chans es c Z0) = List.length es.
Proof. by rewrite /chans List.map_length List.combine_length List.seq_length Nat.min_id. Qed.
Lemma nth_chans es c Z0 i ch : nth_error es i = Some ch -> nth_error (chans es c Z0) i = Some ((fun col : nat -> C => col ch), (c i, Z0 i)).
Proof.
move=> H; rewrite /chans List.nth_error_map.
suff -> : nth_error (combine (List.seq 0 (List.length es)) es) i = Some (i, ch) by [].
rewrite -{2}[i](add0n i) -plusE; move: O; elim: es i H => [|e es IH] [|i] //= H m; first by case: H => ->; rewrite Nat.add_0_r.
by rewrite (IH _ H) Nat.add_succ_comm.
Qed.
Lemma nth_ext_error (T : Type) (l l' : list T) : (forall i, nth_error l i = nth_error l' i) -> l = l'.
Proof.
elim: l l' => [|x l IH] [|y l'] H //; try by move: (H O).
by move: (H O) => /= [->]; congr cons; apply: IH => i; exact: (H (S i)).
Qed.
Lemma map_chans (T : Type) es c Z0 (F : chan (nat -> C) -> T) (G : nat -> nat -> T) :
  (forall i ch, nth_error es i = Some ch -> F ((fun col : nat -> C => col ch), (c i, Z0 i)) = G i ch) ->
  forall i, nth_error (List.map F (chans es c Z0)) i = option_map (G i) (nth_error es i).
Proof.
move=> H i; rewrite List.nth_error_map; case E: (nth_error es i) => [ch|].
  by rewrite (nth_chans _ _ E) /= (H _ _ E).
rewrite (proj2 (List.nth_error_None _ _)) // size_chans; exact/List.nth_error_None.
Qed.

Lemma combine_error (S T : Type) (x : list S) (y : list T) i a b : nth_error x i = Some a -> nth_error y i = Some b -> nth_error (combine x y) i = Some (a, b).
Proof. by elim: x y i => [|u x IH] [|v y] [|i] //=; [case=> -> [->]|exact: IH]. Qed.
Lemma xmul_assoc1 a x s : Rlt 0 a -> xmul (xmul (Fin a) x) (Fin s) = xmul (Fin a) (xmul x (Fin s)).
Proof. by move=> Ha; have := @xmul_mul a R1 x s Ha Rlt_0_1; rewrite /Rdiv Rinv_1 !Rmult_1_r. Qed.

Section Local.
Variables (n : nat) (A M : nat -> nat -> C) (es bs : list nat) (c : nat -> C) (Z0 : nat -> nat -> C).
Hypotheses (Hbs : bs <> [::]) (HM : invertible (size bs) M) (HA : inputs_mixed n A bs M) (HE : outputs_mixed n A es bs c Z0).
Hypotheses (Hc : forall i, c i <> RtoC 0).
Notation q := (size bs).
Notation ps := (chans es c Z0).
Notation bf := (bf bs).
Let UM := invertible_unit HM.

Lemma chans_before cols : picked cols es = List.map (before cols) ps.
Proof.
apply: nth_ext_error => i; rewrite (@map_chans _ es c Z0 (before cols) (fun _ ch => List.map (fun col => col ch) cols)) //.
by rewrite /picked List.nth_error_map.
Qed.
Lemma chans_after cols : picked (List.map (mixcol n A) cols) es = List.map (after cols q bf) ps.
Proof.
apply: nth_ext_error => i.
rewrite (@map_chans _ es c Z0 (after cols q bf) (fun _ ch => List.map (fun col => mixcol n A col ch) cols)).
  by rewrite /picked List.nth_error_map; case: (nth_error es i) => //= ch; rewrite List.map_map.
move=> k ch Hk; rewrite /after; apply: List.map_ext => col /=; rewrite /mix_out /= -sum_of_row.
by have := HE Hk col; rewrite csum_big => E; rewrite /mixcol; symmetry; exact: E.
Qed.
Lemma chans_nz : List.Forall (fun p : chan (nat -> C) => p.2.1 <> RtoC 0) ps.
Proof. by apply/List.Forall_map; apply/List.Forall_forall => p _; exact: Hc. Qed.

(** the rejections of prefilters *)
Lemma prefilter_mixed cols pf iv : (pf = None \/ combination_free pf /\ forall i j, Z0 i j = 0) ->
  apply_prefilter listU (picked (List.map (mixcol n A) cols) es) (picked (List.map (mixcol n A) cols) bs) pf iv
  = apply_prefilter listU (picked cols es) (picked cols bs) pf iv.
Proof.
move=> Hp; rewrite /apply_prefilter.
have Ls cols' : List.length (picked cols' es) = List.length es by exact: List.map_length.
rewrite !Ls; case: (check _ _) => //= _; case: (check _ _) => //= _; case: pf Hp => [f|] //= [//|[Hf H0]].
set l := (match iv with PNone => _ | _ => _ end); move: l => l; rewrite !rows_picked // -!/bf (mixed_rows HA) chans_after chans_before.
have Ef p : p.2.1 <> RtoC 0 -> (forall j, p.2.2 j = 0) ->
  f (after cols q bf p) (List.map (fun col => mix_row q M (bf col)) cols) = f (before cols p) (List.map bf cols).
  move=> Np Zp.
  have -> : after cols q bf p = List.map (Cmult p.2.1) (before cols p).
    rewrite /after /before List.map_map; apply: List.map_ext => col; rewrite /mix_out /= big1 ?addr0 // => j _; by rewrite Zp mul0r.
  apply: (Hf q M) => //.
  - by rewrite /before !List.map_length.
  - by split=> //; apply/List.Forall_map; apply/List.Forall_forall => col _; exact: size_bf.
  - by split; [rewrite !List.map_length|apply/List.Forall_map; apply/List.Forall_forall => col _; exact: size_mix_row].
  - move=> t i; rewrite List.map_length => /ltP Ht /ltP Hi; rewrite csum_big /at_ij !nthE.
    rewrite (nth_map (fun=> 0)) // nth_mix_row //; apply: eq_bigr => j _; rewrite -[Cmult _ _]/(M i j * _); congr (_ * _).
    by rewrite !nthE (nth_map (fun=> 0)).
have := chans_nz; have : List.Forall (fun p : chan (nat -> C) => forall j, p.2.2 j = 0) ps.
  by apply/List.Forall_map; apply/List.Forall_forall => p _ j; exact: H0.
elim: (chans es c Z0) (l) => [|p ps' IH] [|iv' l'] //= F1 F2; inversion F1; inversion F2; subst.
by rewrite Ef //; case: (f _ _) => //= r; rewrite IH.
Qed.

Definition mix_table (pp : list (chan (nat -> C))) (z : list (list C)) : list (list C) :=
  List.map (fun p => mix_est q M p.1.2.1 p.1.2.2 p.2) (combine pp z).
Lemma rows_of_mix x (pp : list (chan (nat -> C))) l : size l = size pp ->
  rows_of (k := listK) x (List.map fst (mix_results q M pp l)) = rmap (mix_table pp) (rows_of (k := listK) x (List.map fst l)).
Proof.
rewrite /rows_of /mix_results /mix_table; elim: pp l => [|p pp IH] [|[[z|] iv] l] //= [L].
by rewrite IH //; case: (mapM _ _).
Qed.
Lemma snd_mix (pp : list (chan (nat -> C))) l : size l = size pp -> List.map snd (mix_results q M pp l) = List.map snd l.
Proof. by rewrite /mix_results; elim: pp l => [|p pp IH] [|x l] //= [L]; rewrite IH. Qed.
Lemma rows_sized x (l : list (option (list C) * list Z)) z : rows_of (k := listK) x (List.map fst l) = Ok z ->
  List.Forall (fun p => match fst p with Some z => size z = q | None => True end) l -> size z = size l /\ List.Forall (fun row => size row = q) z.
Proof.
rewrite /rows_of; elim: l z => [|[[z0|] iv] l IH] z //=; first by case=> <-.
case E: (mapM _ _) => [z'|] //= [<-] F; inversion F as [|? ? F1 F2]; subst.
have [L' F'] := IH _ E F2; by split; [rewrite /= L'|constructor].
Qed.

Lemma table_solves z : size z = size es -> List.Forall (fun row => size row = q) z -> solves (size es) q M c Z0 z (mix_table ps z).
Proof.
move=> Lz Fz; have Lp : size ps = size es := size_chans es c Z0.
split; [by split|split].
  split; first by rewrite /mix_table List.map_length List.combine_length -[List.length ps]/(size ps) -[List.length z]/(size z) Lp Lz Nat.min_id.
  by apply/List.Forall_map; apply/List.Forall_forall => p _; exact: size_mix_est.
move=> i j /ltP Hi /ltP Hj; rewrite csum_big.
have Hz : is_true (leq (S i) (size z)) by rewrite Lz.
have Ez := nth_error_seq [::] Hz.
have Ee := nth_error_seq O Hi.
have En : nth_error (mix_table ps z) i = Some (mix_est q M (c i) (Z0 i) (seq.nth [::] z i)).
  by rewrite /mix_table List.nth_error_map (combine_error (nth_chans c Z0 Ee) Ez).
have {}En := proj2 (seq_nth_error [::] En).
rewrite /at_ij !nthE En -[Cplus _ _]/(c i * _ + _) -(@mix_solves q M (c i) (Z0 i) _ j UM Hj).
by apply: eq_bigr => k _; rewrite nthE.
Qed.

#[local] Arguments xdiv : simpl never.
#[local] Arguments xmul : simpl never.
Lemma error_mixed cols z ivs : es <> [::] -> size z = size es -> size ivs = size es ->
  both (fun err err' => table_of (size es) q err /\ table_of (size es) q err' /\ (identity q M -> entrywise (fun i _ x => xmul (Fin (Cmod (c i))) x) err err'))
    (l_error (picked cols es) (picked cols bs) z ivs)
    (l_error (picked (List.map (mixcol n A) cols) es) (picked (List.map (mixcol n A) cols) bs) (mix_table ps z) ivs).
Proof.
move=> He Lz Li; have Lp : size ps = size es := size_chans es c Z0.
rewrite !(@l_error_n q) ?size_picked // !columns_picked // -[size (List.map _ _)]/(List.length _) List.map_length -[List.length cols]/(size cols) /=.
rewrite (@gram_mixed_unit n A M bs) //; case: ifP => //= U.
move: (INR (size cols)) => N; set r := Rdiv _ _.
have Lt : size (mix_table ps z) = size es.
  by rewrite -[LHS]/(List.length _) List.map_length List.combine_length -[List.length ps]/(size ps) -[List.length z]/(size z) Lp Lz Nat.min_id.
split; last split.
- split; first by rewrite -[LHS]/(size _) size_map !size_zip size_picked Lz Li !minnn.
  apply/List.Forall_map; apply/List.Forall_forall => p _; by rewrite -[LHS]/(size _) size_map size_enum_ord.
- split; first by rewrite -[LHS]/(size _) size_map !size_zip size_picked Lt Li !minnn.
  apply/List.Forall_map; apply/List.Forall_forall => p _; by rewrite -[LHS]/(size _) size_map size_enum_ord.
move=> HI.
have M1 : mix_matrix q M = 1%:M.
  apply/matrixP => i j; rewrite !mxE (HI j i (ltP (ltn_ord j)) (ltP (ltn_ord i))) -[Nat.eqb j i]/(nat_of_ord j == nat_of_ord i) eq_sym.
  by case: eqP => [/ord_inj ->|Ne]; [rewrite eqxx|case: eqP => // E'; case: Ne; rewrite E'].
rewrite (@gram_mixed n A M bs) // M1 map_mx1 mulmx1 trmx1 mul1mx.
set G := gram_n q _.
pose row m x : list ext := [seq xmul (xdiv (xdiv (Fin x) (Fin r)) (Fin (Rminus N (INR m)))) (Fin (sqrt (Cmod (invmx G j j)))) | j <- fintype.enum 'I_q].
have Er m x cc : Rlt 0 (Cmod cc) -> row m (Rmult (Cmod cc) x) = List.map (xmul (Fin (Cmod cc))) (row m x).
  move=> Pc; rewrite /row -[List.map _ _]/[seq _ | _ <- _] -map_comp; apply: eq_map => j; rewrite /comp.
  by rewrite -[Fin (Rmult (Cmod cc) x)]/(xmul (Fin (Cmod cc)) (Fin x)) !xdiv_mul // xmul_assoc1.
have K : [seq row (size p.2) (l_nres (picked (List.map (mixcol n A) cols) bs) p.1.1 p.1.2) | p <- zip (zip (picked (List.map (mixcol n A) cols) es) (mix_table ps z)) ivs]
  = List.map (fun p => List.map (xmul (Fin (Cmod p.1.2.1))) p.2) (combine ps [seq row (size p.2) (l_nres (picked cols bs) p.1.1 p.1.2) | p <- zip (zip (picked cols es) z) ivs]).
  rewrite chans_after chans_before /mix_table; have := chans_nz.
  elim: (chans es c Z0) (z) (ivs) => [|p pp IH] [|x z'] [|iv ivs'] //= F; inversion F as [|? ? F1 F2]; subst.
  rewrite IH //; congr cons; rewrite /after (@nres_mixed n A M bs) // -/(before _ _) Er //; exact/Cmod_gt_0.
rewrite -/(row _ _).
change (entrywise (fun i _ x => xmul (Fin (Cmod (c i))) x) [seq row (size p.2) (l_nres (picked cols bs) p.1.1 p.1.2) | p <- zip (zip (picked cols es) z) ivs]
  [seq row (size p.2) (l_nres (picked (List.map (mixcol n A) cols) bs) p.1.1 p.1.2) | p <- zip (zip (picked (List.map (mixcol n A) cols) es) (mix_table ps z)) ivs]).
rewrite K; set err := [seq _ | p <- _].
have Le : size err = size es by rewrite /err size_map !size_zip size_picked Lz Li !minnn.
split; first by rewrite List.map_length List.combine_length -[List.length ps]/(size ps) Lp -[List.length err]/(size err) Le Nat.min_id.
move=> i rw Hr; exists (List.map (xmul (Fin (Cmod (c i)))) rw); split; last first.
  split; first exact: List.map_length. by move=> j x Hx; rewrite List.nth_error_map Hx.
have [Hi _] := seq_nth_error [::] Hr; rewrite Le in Hi.
by rewrite List.nth_error_map (combine_error (nth_chans c Z0 (nth_error_seq O Hi)) Hr).
Qed.

(** ** Without remote reference *)
Section Coeffs.
Variables (a : arguments) (X X' : recordings).
Hypotheses (Wa : library (ia_weights a)) (Pa : ia_prefilter a = None \/ combination_free (ia_prefilter a) /\ forall i j, Z0 i j = 0).
Hypotheses (Ht : ss_tags X' = ss_tags X) (Te : t_get (ss_tags X) (ia_elec a) = Ok es) (Tb : t_get (ss_tags X) (ia_mag a) = Ok bs).
Hypothesis (Hr : remote_name a = None).

Lemma estimate_mixed wl cols ivs (h h' : heap listW) : library_weights wl -> es <> [::] -> size ivs = size es ->
  fst (estimate listU a (picked (List.map (mixcol n A) cols) es) (picked (List.map (mixcol n A) cols) bs) (weightings listW wl) ivs h')
  = rmap (mix_results q M ps) (fst (estimate listU a (picked cols es) (picked cols bs) (weightings listW wl) ivs h)) /\
  forall l, fst (estimate listU a (picked cols es) (picked cols bs) (weightings listW wl) ivs h) = Ok l ->
    size l = size es /\ List.Forall (fun p => match fst p with Some z => size z = q | None => True end) l.
Proof.
move=> Wl He Li.
have Lp : List.length ivs = List.length ps by rewrite size_chans.
have Np : ps <> [::] by move=> E; have := size_chans es c Z0; rewrite E => /esym; case: (es) He.
rewrite /estimate; case: (ia_real_pb a) => //; cbn [u_rows listU]; rewrite !rows_picked // -!/bf (mixed_rows HA) chans_after chans_before.
split; first exact: (@transfer_mixed _ cols q M bf UM (size_bf bs) (ia_opts a) wl Wl ps ivs h h' Np Lp chans_nz).
move=> l E; split.
  move: E; case E: (transfer_function _ _ _ _ _ _ _) => [r st] /= Hl; rewrite {}Hl in E.
  have [E' _] := transfer_function_solved _ _ _ _ _ _ _ _ E; by rewrite -[LHS]/(List.length l) E' List.map_length size_chans.
apply: (@estimates_sized _ cols q bf (ia_opts a) wl (List.map fst ps) ivs h l (size_bf bs) Wl).
- by case: (chans es c Z0) Np.
- by rewrite List.map_length.
- by rewrite List.map_map.
Qed.

Lemma coeffs_local cols w (h h' : heap listW) : @run_windows listK R calibration X' w = @run_windows listK R calibration X w ->
  both (local_result es bs M c Z0) (fst (impedance_coeffs listU a X (lines n cols) w h)) (fst (impedance_coeffs listU a X' (lines n (List.map (mixcol n A) cols)) w h')).
Proof.
move=> Hw; rewrite /impedance_coeffs Ht Te Tb Hr /=.
have [[x Ex]|Ee] := pick_lines n es; first by rewrite !Ex.
have [[x Ex]|Eb] := pick_lines n bs; first by rewrite !Ee !Ex.
rewrite !Ee !Eb /= prefilter_mixed //.
have Ls cols' idx : List.length (picked cols' idx) = List.length idx by exact: List.map_length.
rewrite !Ls; case E2: (apply_prefilter _ _ _ _ _) => [iv2|x] //=.
have [Ho Li] := nonempty_prefilter E2.
have He : es <> [::] by move=> E; apply: Ho; rewrite E.
rewrite size_picked in Li.
have [wl [-> Lw]] := Wa.
have [] := @estimate_mixed wl cols iv2 h h' Lw He Li.
case: (estimate listU a (picked cols es) _ _ _ h) => r st2; case: (estimate _ _ _ _ _ _ h') => r' st2' /= -> Sz.
case: r Sz => [l|x] Sz /=; last by case: (ia_silent a).
have [Ll Fl] := Sz _ erefl.
have Lp : size l = size ps by rewrite Ll; symmetry; exact: size_chans.
rewrite rows_of_mix // snd_mix // Hw.
case E: (rows_of IndexError _) => [z|x] //=.
have [Lz Fz] := rows_sized E Fl; rewrite Ll in Lz.
have Lv : size (List.map snd l) = size es by rewrite -Ll; exact: List.map_length.
have := @error_mixed cols z (List.map snd l) He Lz Lv.
case: (l_error (picked cols es) _ _ _) => [err|x]; case: (l_error _ _ _ _) => [err'|x'] //= [T1 [T2 T3]].
split=> /=; first exact: table_solves.
by split.
Qed.
End Coeffs.
End Local.
