(** What the determination filter of complete estimates rejects. *)
From Coq Require Import Reals Lra Lia.
From Coquelicot Require Import Complex.
From mathcomp Require Import all_ssreflect all_algebra.
From Verif Require Import WlseModel WlseProofs CField RemoteMx.
From Verif Require Import Base BaseLemmas Arith TagsModel SyncModel SetModel FourierModel MestModel SpecMest WeightModel RobustModel BiModel
  SimProofs FullModel SpecFull FullProofs PrefilterModel SpecPrefilter PrefilterProofs UtilsModel WholeModel WholeScale WholeRemote SpecWholeCod.
Set Implicit Arguments.
Unset Strict Implicit.
Unset Printing Implicit Defensive.
Import GRing.Theory.
Local Open Scope ring_scope.
Local Notation H := (herm cjC).

Lemma fold_big (T : Type) (f : T -> R) d l : sum_R (List.map f l) = \big[Rplus/R0]_(t < size l) f (seq.nth d l t).
Proof.
elim: l => [|x l IH] /=; first by rewrite big_ord0.
by rewrite big_ord_recl /= -IH.
Qed.
Lemma predicted_mx q z row : size z = q -> size row = q -> predicted z row = (row_of q row *m column_of q z) 0 0.
Proof.
move=> Lz Lr; rewrite mxE; under eq_bigr => j _ do rewrite !mxE.
elim: q z row Lz Lr => [|q IH] [|v z] [|x row] //= Lz Lr; first by rewrite big_ord0.
rewrite big_ord_recl /=; congr Cplus; first exact: Cmult_comm.
by apply: IH; [case: Lz|case: Lr].
Qed.
Lemma nth_row q b t : seq.nth 0 (mx_rows q b) t = row_of q (seq.nth [::] b t).
Proof.
elim: b t => [|r b IH] [|t] //=; apply/rowP => j; by rewrite !mxE seq.nth_nil.
Qed.
Lemma nth_combine (S T : Type) (x : list S) (y : list T) d d' t : size y = size x -> seq.nth (d, d') (combine x y) t = (seq.nth d x t, seq.nth d' y t).
Proof. by elim: x y t => [|u x IH] [|v y] [|t] //= [L]; rewrite IH. Qed.

Lemma nth_member (T : Type) (d : T) l t : is_true (leq (S t) (size l)) -> List.In (seq.nth d l t) l.
Proof. by elim: l t => [|x l IH] [|t] //= Ht; [left|right; exact: IH]. Qed.
Lemma sum_ge0 (T : Type) (f : T -> R) l : (forall x, Rle 0 (f x)) -> Rle 0 (sum_R (List.map f l)).
Proof. move=> P; elim: l => [|x l IH] /=; [exact: Rle_refl|have := P x; lra]. Qed.
Lemma modulus2_ge0 x : Rle 0 (modulus2 x).
Proof. rewrite /modulus2; have := Cmod_ge_0 x; nra. Qed.
Lemma sum_eq0 (T : Type) (f : T -> R) l : (forall x, Rle 0 (f x)) -> sum_R (List.map f l) = R0 <-> forall x, List.In x l -> f x = R0.
Proof.
move=> P; elim: l => [|x l IH] /=; first by split.
have G := sum_ge0 l P; have Px := P x; split.
- move=> E y [<-|Hy]; first by lra.
  by apply: IH.1 => //; rewrite /sum_R in G E *; lra.
- move=> A; have := A x (or_introl erefl); have := IH.2 (fun y Hy => A y (or_intror Hy)); rewrite /sum_R; lra.
Qed.
Lemma power_heard e : power e <> R0 <-> heard e.
Proof.
have M x : modulus2 x = R0 <-> x = RtoC 0.
  rewrite /modulus2; split=> [E|->]; last by rewrite Cmod_0; ring.
  apply: Cmod_eq_0; have := Cmod_ge_0 x; nra.
split.
- move=> N; suff [A|//] : (forall x, List.In x e -> modulus2 x = R0) \/ heard e.
    by case: N; apply/sum_eq0 => //; exact: modulus2_ge0.
  elim: (e) => [|x l [A|[y [Hy Ny]]]]; first by left.
    case: (Ceq_dec x (RtoC 0)) => [->|Nx]; last by right; exists x; split=> //; left.
    left=> y [<-|Hy]; [exact/M|exact: A].
  by right; exists y; split=> //; right.
- move=> [x [Hx Nx]] /(sum_eq0 _ modulus2_ge0) A; apply: Nx; apply/M; exact: A.
Qed.

Section Block.
Variables (q : nat) (e : list C) (b : list (list C)).
Hypotheses (L : size b = size e) (W : forall r, List.In r b -> size r = q).
Let n := size e.
Let X : 'cV[C]_n := \col_i seq.nth 0 e i.
Let Y : 'M[C]_(n, q) := WlseModel.rows n (mx_rows q b).
Definition en m (v : 'cV[C]_m) : R := \big[Rplus/R0]_(t < m) modulus2 (v t 0).

Lemma left_over_mx z : size z = q -> left_over e b z = en (X - Y *m column_of q z).
Proof.
move=> Lz; rewrite /left_over (fold_big _ (0, [::])) /en.
have Lc : size (combine e b) = n by rewrite -[size _]/(List.length _) List.combine_length -![List.length _]/(size _) L Nat.min_id.
rewrite Lc; apply: eq_bigr => t _; rewrite nth_combine //=; congr modulus2.
rewrite (@predicted_mx q) //; last by apply: W; apply: nth_member; rewrite L.
rewrite !mxE; congr (_ - _); apply: eq_bigr => j _; by rewrite !mxE nth_row !mxE.
Qed.

Lemma en_mx m (v : 'cV[C]_m) : RtoC (en v) = (H v *m v) 0 0.
Proof.
rewrite /en mxE (big_morph RtoC (id1 := 0) (op1 := +%R) RtoC_plus erefl); apply: eq_bigr => t _; rewrite !mxE.
case: (v t 0) => x y; have -> : modulus2 (x, y) = Rplus (Rmult x x) (Rmult y y) by rewrite /modulus2 /Cmod /= sqrt_sqrt; [ring|nra].
apply: injective_projections => /=; ring.
Qed.
Lemma en_ge0 m (v : 'cV[C]_m) : Rle 0 (en v).
Proof. rewrite /en; elim/big_ind: _ => [|x y|t _]; [exact: Rle_refl|lra|exact: modulus2_ge0]. Qed.
Lemma pythagoras m (r y : 'cV[C]_m) : H y *m r = 0 -> en (r + y) = Rplus (en r) (en y).
Proof.
move=> O; have O' : H r *m y = 0.
  have : H (H y *m r) = 0 by rewrite O; apply/matrixP => i j; rewrite !mxE rmorph0.
  rewrite herm_mul; suff -> : H (H y) = y by [].
  by apply/matrixP => i j; rewrite !mxE; case: (y i j) => u v; apply: injective_projections => //=; exact: Ropp_involutive.
apply: RtoC_inj; rewrite RtoC_plus !en_mx.
have -> : H (r + y) = H r + H y by apply/matrixP => i j; rewrite !mxE rmorphD.
rewrite mulmxDl !mulmxDr O O' addr0 add0r; by rewrite mxE.
Qed.

Lemma solution z : is_true (leq 1 (size b)) -> l_wlse e b None = Ok z -> size z = q /\ H Y *m (X - Y *m column_of q z) = 0.
Proof.
move=> Nb; have Wd : width b = q by case: (b) Nb W => //= r b' _ W'; rewrite /width /=; apply: W'; left.
rewrite /l_wlse Wd /full_wlse /= (wlse_rows_n _ (n := n)) //.
case E: (wlse _ _ _ _) => [v|] //= -[<-]; rewrite size_values column_values; split=> //.
move/wlse_iff: E => [_]; rewrite /normal /rhs /= => E; by rewrite mulmxBr mulmxA -E subrr.
Qed.
Lemma best z z' : is_true (leq 1 (size b)) -> l_wlse e b None = Ok z -> size z' = q -> Rle (left_over e b z) (left_over e b z').
Proof.
move=> Nb E Lz'; have [Lz O] := solution Nb E; rewrite !left_over_mx //.
have -> : X - Y *m column_of q z' = (X - Y *m column_of q z) + Y *m (column_of q z - column_of q z').
  by rewrite mulmxBr addrA subrK.
rewrite (@pythagoras _ (X - Y *m column_of q z)); last by rewrite herm_mul -mulmxA O mulmx0.
have := en_ge0 (Y *m (column_of q z - column_of q z')); lra.
Qed.

Lemma squares_left z : size z = q -> is_true (leq 1 (size b)) -> fold_right Rplus R0 (List.map square (l_resid e b z)) = left_over e b z.
Proof.
move=> Lz Nb; have Wd : width b = q by case: (b) Nb W => //= r b' _ W'; rewrite /width /=; apply: W'; left.
rewrite /l_resid Wd /full_resid /left_over /sum_R List.map_map; congr (fold_right _ _).
rewrite /mx_rows; elim: (e) (b) W => [|x e' IH] [|r b'] //= W'; congr cons.
- rewrite /modulus2 (@predicted_mx q) //; by apply: W'; left.
- by apply: IH => r' Hr'; apply: W'; right.
Qed.
Lemma left_none z : (forall x, List.In x z -> x = RtoC 0) -> left_over e b z = power e.
Proof.
move=> Z; have P row : predicted z row = RtoC 0.
  elim: z row Z => [|v z IH] [|x row] //= Z; rewrite (Z v (or_introl erefl)) IH; last by move=> y Hy; apply: Z; right.
  by rewrite Cmult_0_l Cplus_0_l.
rewrite /left_over /power; elim: (e) (b) L => [|x e' IH] [|r b'] //= [L']; rewrite /sum_R /= -/(sum_R _) -/(sum_R _) IH //.
by rewrite P; congr (Rplus (modulus2 _) _); rewrite /Cminus -[Copp (RtoC 0)]/(- (0 : C)) oppr0; exact: addr0.
Qed.

(** the value of a block *)
Lemma cod_value v : l_cod e b = Ok v -> (heard e -> exists d, v = Some d /\ best_part q e b d) /\ (~ heard e -> v = None).
Proof.
rewrite /l_cod; case E: (l_wlse e b None) => [z|x] //= -[<-]; rewrite -[energy_of e]/(power e).
case: (Req_EM_T (power e) R0) => P; first by split=> // /power_heard.
have [h N] : heard e by apply/power_heard.
have Nb : is_true (leq 1 (size b)) by rewrite L; case: (e) N => [[]|].
have [Lz _] := solution Nb E; split=> [_|F]; last by case: F; exists h.
rewrite squares_left //; have G0 : Rle 0 (left_over e b z) by apply: sum_ge0 => p; exact: modulus2_ge0.
have G1 : Rle (left_over e b z) (power e).
  rewrite -(@left_none (List.repeat (RtoC 0) q)); last by move=> x /(@List.repeat_spec _ _ _ _).
  by apply: best => //; exact: List.repeat_length.
have Pp : Rlt 0 (power e) by have := @sum_ge0 _ _ e modulus2_ge0; rewrite -/(power e); lra.
exists (sqrt (Rminus R1 (Rdiv (left_over e b z) (power e)))); split=> //; split; first exact: sqrt_pos.
exists (left_over e b z); split; first by move=> z' Lz'; exact: best.
split; first by exists z.
rewrite sqrt_sqrt; first by field.
have : Rle (Rdiv (left_over e b z) (power e)) R1; last by lra.
apply: (Rmult_le_reg_r (power e)) => //; rewrite /Rdiv Rmult_assoc Rinv_l //; lra.
Qed.

Lemma part_unique d d' : heard e -> best_part q e b d -> best_part q e b d' -> d = d'.
Proof.
move=> /power_heard P [G [m [A [[z [Lz E]] F]]]] [G' [m' [A' [[z' [Lz' E']] F']]]].
have Em : m = m'.
  by apply: Rle_antisym; [rewrite E'; exact: (A z' Lz')|rewrite E; exact: (A' z Lz)].
have : Rmult d d = Rmult d' d' by apply: (Rmult_eq_reg_r (power e)); [rewrite F F' Em|].
nra.
Qed.
Lemma part_bounds d : heard e -> best_part q e b d -> Rle 0 d /\ Rle d R1.
Proof.
move=> /power_heard P [G [m [A [[z [Lz E]] F]]]]; split=> //.
have G0 : Rle 0 m by rewrite E; apply: sum_ge0 => p; exact: modulus2_ge0.
have Pp : Rlt 0 (power e) by have := @sum_ge0 _ _ e modulus2_ge0; rewrite -/(power e); lra.
have D : Rle (Rmult d d) R1 by apply: (Rmult_le_reg_r (power e)) => //; rewrite F; lra.
by case: (Rle_lt_dec d R1) => // D'; nra.
Qed.

Lemma free_mx : free_rows q b <-> forall v : 'cV[C]_q, Y *m v = 0 -> v = 0.
Proof.
have PM v t : size v = q -> is_true (leq (S t) n) -> predicted v (seq.nth [::] b t) = (row_of q (seq.nth [::] b t) *m column_of q v) 0 0.
  by move=> Lv Ht; apply: predicted_mx => //; apply: W; apply: nth_member; rewrite L.
split.
- move=> F v E; apply/colP => j; rewrite mxE -(nth_values v j).
  suff /List.Forall_forall A : List.Forall (fun x => x = RtoC 0) (values v) by apply: A; apply: nth_member; rewrite size_values.
  apply: F; first exact: size_values.
  move=> row /(@List.In_nth_error _ _ _) [t Ht].
  have Lt : is_true (leq (S t) (size b)) by apply/ltP; apply/(List.nth_error_Some b); rewrite Ht.
  have <- : seq.nth [::] b t = row by elim: (b) (t) Ht => [|r b' IH] [|t'] //=; [case|exact: IH].
  rewrite L in Lt; rewrite PM //; last exact: size_values.
  rewrite column_values.
  have := congr1 (fun M : 'cV[C]_n => M (Ordinal Lt) 0) E; rewrite !mxE => E'; rewrite -[RHS]E'; apply: eq_bigr => k _.
  by rewrite !mxE nth_row mxE.
- move=> F v Lv Z; apply/List.Forall_forall => x Hx.
  have E : column_of q v = 0.
    apply: F; apply/colP => t; rewrite [RHS]mxE -[RHS](Z (seq.nth [::] b t)); last by apply: nth_member; rewrite L.
    rewrite PM // !mxE; apply: eq_bigr => k _; by rewrite !mxE nth_row mxE.
  have [j Hj] := List.In_nth_error _ _ Hx.
  have Lj : is_true (leq (S j) q) by rewrite -Lv; apply/ltP; apply/(List.nth_error_Some v); rewrite Hj.
  have := congr1 (fun M : 'cV[C]_q => M (Ordinal Lj) 0) E; rewrite !mxE /= => E'; transitivity (seq.nth 0 v j); last exact: E'.
  by elim: (v) (j) Hj => [|r b' IH] [|t'] //=; [case|exact: IH].
Qed.
Lemma cod_ok : is_true (leq 1 (size b)) -> (exists v, l_cod e b = Ok v) <-> free_rows q b.
Proof.
move=> Nb; have Wd : width b = q by case: (b) Nb W => //= r b' _ W'; rewrite /width /=; apply: W'; left.
rewrite free_mx /l_cod /l_wlse Wd /full_wlse /= (wlse_rows_n _ (n := n)) // /wlse /normal /=; split.
- case: ifP => [U _ v E|U [w]] //=; have : H Y *m Y *m v = 0 by rewrite -mulmxA E mulmx0.
  by move/(congr1 (mulmx (invmx (H Y *m Y)))); rewrite mulKmx // mulmx0.
- move=> F; rewrite (gram_unit_inj F) /=; by eexists.
Qed.
Lemma cod_err x : l_cod e b = Err x -> x = LinAlgError.
Proof. rewrite /l_cod /l_wlse /full_wlse /=; by case: (wlse_rows _ _ _ _) => //= -[]. Qed.
End Block.

Lemma rows_lens (S T : Type) lo hi (e : list S) (b : list T) : List.length b = List.length e ->
  List.length (SpecPrefilter.rows lo hi b) = List.length (SpecPrefilter.rows lo hi e).
Proof. by move=> L; rewrite /SpecPrefilter.rows !List.firstn_length !List.skipn_length L. Qed.
Lemma rows_sub (T : Type) lo hi (l : list T) x : List.In x (SpecPrefilter.rows lo hi l) -> List.In x l.
Proof.
rewrite /SpecPrefilter.rows -{2}(List.firstn_skipn lo l) => I; apply/List.in_app_iff; right.
by rewrite -(List.firstn_skipn (hi - lo) (skipn lo l)); apply/List.in_app_iff; left.
Qed.

Section Filter.
Variables (q : nat) (cmin cmax : R) (sz : nat) (e : list C) (b : list (list C)).
Hypotheses (S : (0 < sz)%coq_nat) (L : List.length b = List.length e) (W : forall r, List.In r b -> List.length r = q).

Lemma rows_some i lo hi : in_block sz (List.length e) i lo hi -> is_true (leq 1 (List.length (SpecPrefilter.rows lo hi b))).
Proof.
move=> [H1 [_ H2]]; apply/ltP; rewrite /SpecPrefilter.rows List.firstn_length List.skipn_length L.
case: H2 => [[E1 H2]|[E1 _]]; lia.
Qed.

Lemma l_filter iv : l_cod_filter cmin cmax sz e b = Ok iv ->
  StronglySorted BinInt.Z.lt iv /\
  forall j, List.In j iv <-> exists i lo hi d, j = BinInt.Z.of_nat i /\ in_block sz (List.length e) i lo hi /\
    heard (SpecPrefilter.rows lo hi e) /\ best_part q (SpecPrefilter.rows lo hi e) (SpecPrefilter.rows lo hi b) d /\ (Rlt d cmin \/ Rlt cmax d).
Proof.
move=> F; have [Hs I] := filter_spec _ _ _ _ _ _ _ _ _ _ _ _ S L F; split=> // j; rewrite I.
have W' lo hi r : List.In r (SpecPrefilter.rows lo hi b) -> List.length r = q by move=> Hr; apply: W; exact: rows_sub Hr.
have Dec (x y : R) : (if Rlt_dec x y then true else false) = true <-> Rlt x y by case: (Rlt_dec x y).
split.
- move=> [i [lo [hi [v [-> [B [V O]]]]]]]; have L' := rows_lens lo hi L.
  have [V1 V2] := cod_value L' (W' lo hi) V.
  case: (Req_EM_T (power (SpecPrefilter.rows lo hi e)) R0) => P.
  + have Nh : ~ heard (SpecPrefilter.rows lo hi e) by move=> Hh; exact: ((power_heard _).2 Hh P).
    by move: O; rewrite (V2 Nh) /=; case.
  + have Hh : heard (SpecPrefilter.rows lo hi e) by apply/power_heard.
    have [d [E X]] := V1 Hh; exists i, lo, hi, d; subst v; split=> //; split=> //; split=> //; split=> //.
    by case: O => /Dec; [left|right].
- move=> [i [lo [hi [d [-> [B [N [X O]]]]]]]]; have L' := rows_lens lo hi L.
  have [v V] : exists v, l_cod (SpecPrefilter.rows lo hi e) (SpecPrefilter.rows lo hi b) = Ok v.
    have Hl : (i < List.length e)%coq_nat by case: B => H1 [_ [[E1 H2]|[E1 _]]]; lia.
    move: F; rewrite /l_cod_filter /cod_filter; case V: value => [c|] //= _.
    have [_ P] := value_spec _ _ _ _ _ _ S L V.
    have [lo' [hi' [v [B' [V' _]]]]] := P i Hl; exists v.
    by have [-> ->] := in_block_fun _ _ _ _ _ _ _ S B B'.
  exists i, lo, hi, v; split=> //; split=> //; split=> //.
  have [V1 _] := cod_value L' (W' lo hi) V; have [d' [-> X']] := V1 N.
  by rewrite (part_unique N X' X) /= !Dec.
Qed.

Lemma l_filter_value : (exists iv, l_cod_filter cmin cmax sz e b = Ok iv) <-> exists c, value (Some R0) l_cod sz e b = Ok c.
Proof. rewrite /l_cod_filter /cod_filter; case: value => [c|x] /=; split=> [] [u] //; by eexists. Qed.
Lemma l_filter_ok : e <> [] -> (exists iv, l_cod_filter cmin cmax sz e b = Ok iv) <->
  forall i lo hi, in_block sz (List.length e) i lo hi -> free_rows q (SpecPrefilter.rows lo hi b).
Proof.
move=> Ne; rewrite l_filter_value.
have W' lo hi r : List.In r (SpecPrefilter.rows lo hi b) -> List.length r = q by move=> Hr; apply: W; exact: rows_sub Hr.
split=> [[c V] i lo hi B|I].
- have Hl : (i < List.length e)%coq_nat by case: B => H1 [_ [[E1 H2]|[E1 _]]]; lia.
  have [_ P] := value_spec _ _ _ _ _ _ S L V; have [lo' [hi' [v [B' [V' _]]]]] := P i Hl.
  have [E1 E2] := in_block_fun _ _ _ _ _ _ _ S B B'; subst lo' hi'.
  by apply/(cod_ok (rows_lens lo hi L) (W' lo hi) (rows_some B)); exists v.
- apply: value_ok => // i lo hi B; apply/(cod_ok (rows_lens lo hi L) (W' lo hi) (rows_some B)); exact: I B.
Qed.
Lemma l_filter_err x : e <> [] -> l_cod_filter cmin cmax sz e b = Err x -> x = LinAlgError.
Proof.
move=> Ne; rewrite /l_cod_filter /cod_filter; case V: value => [c|y] //= -[<-].
have [i [lo [hi [_ F]]]] := value_err _ _ _ _ _ _ S L Ne V; exact: cod_err F.
Qed.
End Filter.
