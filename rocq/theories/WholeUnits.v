(** Other units of the channels: the coefficients, the two stages, the errors. *)
From Coq Require Import Reals Lra.
From Coquelicot Require Import Complex.
From mathcomp Require Import all_ssreflect all_algebra.
From Verif Require Import WlseModel WlseProofs CField.
From Verif Require Import Base BaseLemmas Arith TagsModel SyncModel SetModel FourierModel MestModel SpecMest SpecMestAll WeightModel RobustModel RobustWeights BiModel ExtLemmas
  SimProofs FullModel SpecFull FullProofs OutputsProofs UtilsModel WholeModel WholeScale.
Set Implicit Arguments.
Unset Strict Implicit.
Unset Printing Implicit Defensive.
Import GRing.Theory.
Local Open Scope ring_scope.

Definition dfun (ds : list C) (j : nat) : C := seq.nth 1 ds j.
Definition nonzero_all (ds : list C) : Prop := List.Forall (fun c => c <> RtoC 0) ds.

Lemma dfun_nz ds j : nonzero_all ds -> dfun ds j <> RtoC 0.
Proof.
move=> H; rewrite /dfun; elim: ds j H => [|x ds IH] [|j] H /=; try exact: (eqP (oner_neq0 _)).
- by move/eqP: (oner_neq0 [ringType of C]).
- by move/eqP: (oner_neq0 [ringType of C]).
- by inversion H.
- by inversion H; apply: IH.
Qed.

Lemma size_scale_each ds ll : size ds = size ll -> size (scale_each ds ll) = size ll.
Proof. by rewrite /scale_each; elim: ds ll => [|x ds IH] [|l ll] //= [/IH ->]. Qed.
Lemma columns_scale ds ll : size ds = size ll -> columns_of (scale_each ds ll) = columns_of ll.
Proof. by case: ds ll => [|x ds] [|l ll] // _; rewrite /columns_of /= size_map. Qed.
Lemma nth_scale_each ds ll i : size ds = size ll -> seq.nth [::] (scale_each ds ll) i = List.map (Cmult (dfun ds i)) (seq.nth [::] ll i).
Proof.
rewrite /scale_each /dfun; elim: ds ll i => [|x ds IH] [|l ll] [|i] //= [L]; exact: IH.
Qed.
Lemma nth_mulmap c l t : seq.nth 0 (List.map (Cmult c) l) t = c * seq.nth 0 l t.
Proof.
elim: l t => [|x l IH] [|t] //=; try by rewrite mulr0.
Qed.
Lemma entry_scale ds ll i t : size ds = size ll -> entry (scale_each ds ll) i t = dfun ds i * entry ll i t.
Proof. by move=> L; rewrite /entry nth_scale_each // nth_mulmap. Qed.

Lemma rows_scale ds ll : size ds = size ll -> l_rows (scale_each ds ll) = List.map (scale_row (dfun ds)) (l_rows ll).
Proof.
move=> L; rewrite /l_rows columns_scale // -[List.map _ _]/([seq _ | _ <- _]) -map_comp; apply: eq_map => t /=.
apply: (@eq_from_nth _ 0); first by rewrite size_scale_row [LHS]size_map [RHS]size_map size_scale_each.
move=> i; rewrite size_map => Hi; rewrite nth_scale_row (nth_map [::]) //.
rewrite size_scale_each // in Hi; rewrite (nth_map [::]) //; exact: entry_scale.
Qed.

(** a table of estimates: row [i], column [j] times [u_i / v_j] *)
Definition scale_table (us vs : list C) (t : list (list C)) : list (list C) :=
  List.map (fun p => scale_row (fun j => fst p / dfun vs j) (snd p)) (combine us t).

Lemma dot_scale us vs T br : size us = size T -> size vs = size br -> nonzero_all vs ->
  l_dot (scale_table us vs T) (scale_each vs br) = scale_each us (l_dot T br).
Proof.
move=> L1 L2 Hv; rewrite /l_dot columns_scale // size_scale_each //.
have E u row : [seq \sum_(j < size br) (scale_row (fun j => u / dfun vs j) row)`_j * entry (scale_each vs br) j t | t <- iota 0 (columns_of br)]
  = List.map (Cmult u) [seq \sum_(j < size br) row`_j * entry br j t | t <- iota 0 (columns_of br)].
  rewrite -[List.map _ _]/([seq _ | _ <- _]) -map_comp; apply: eq_map => t /=.
  rewrite -[Cmult u _]/(u * _) big_distrr /=; apply: eq_bigr => j _; rewrite nth_scale_row entry_scale //.
  have N : dfun vs j != 0 by apply/eqP; exact: dfun_nz.
  by rewrite mulrACA -[u / _ * _]mulrA mulVf // mulr1.
rewrite /scale_table /scale_each -[List.map _ _]/([seq _ | _ <- _]).
by elim: us T L1 => [|u us IH] [|row T] //= [L]; rewrite E IH.
Qed.

(** ** The errors *)

Definition gram_n p (inputs : list (list C)) : 'M[C]_p :=
  \matrix_(i, j) \sum_(t < columns_of inputs) entry inputs i t * cjC (entry inputs j t).

Lemma l_error_n p outputs inputs transfer ivs : size inputs = p -> l_error outputs inputs transfer ivs =
  let n := INR (columns_of outputs) in
  let r := Rdiv (sqrt (Rminus n (INR p))) n in
  if gram_n p inputs \in unitmx then
    Ok [seq [seq xmul (xdiv (xdiv (Fin (l_nres inputs q.1.1 q.1.2)) (Fin r)) (Fin (Rminus n (INR (size q.2)))))
                      (Fin (sqrt (Cmod (invmx (gram_n p inputs) j j)))) | j <- fintype.enum 'I_p]
       | q <- zip (zip outputs transfer) ivs]
  else Err LinAlgError.
Proof. by move=> <-. Qed.

Section Gram.
Variables (p : nat) (vs : list C) (inputs : list (list C)).
Hypotheses (L : size vs = size inputs) (Hv : nonzero_all vs).
Let D : 'M[C]_p := diag_mx (\row_j dfun vs j).
Let D' : 'M[C]_p := diag_mx (\row_j cjC (dfun vs j)).

Lemma gram_scale : gram_n p (scale_each vs inputs) = D *m gram_n p inputs *m D'.
Proof.
apply/matrixP => i j; rewrite mul_mx_diag mul_diag_mx !mxE columns_scale // big_distrr big_distrl /=; apply: eq_bigr => t _.
by rewrite !entry_scale // rmorphM mulrACA [RHS]mulrAC.
Qed.
Lemma D_u : D \in unitmx.
Proof. rewrite unitmxE unitfE det_diag; apply/prodf_neq0 => j _; rewrite mxE; apply/eqP; exact: dfun_nz. Qed.
Lemma D_u' : D' \in unitmx.
Proof. rewrite unitmxE unitfE det_diag; apply/prodf_neq0 => j _; rewrite mxE fmorph_eq0; apply/eqP; exact: dfun_nz. Qed.
Lemma gram_unit : (gram_n p (scale_each vs inputs) \in unitmx) = (gram_n p inputs \in unitmx).
Proof. by rewrite gram_scale !unitmx_mul D_u D_u' andbT. Qed.
Lemma inv_diag (v : 'rV[C]_p) : diag_mx v \in unitmx -> invmx (diag_mx v) = diag_mx (\row_j (v 0 j)^-1).
Proof.
move=> U; have H j : v 0 j != 0.
  by move: U; rewrite unitmxE unitfE det_diag => /prodf_neq0 /(_ j isT).
apply: (can_inj (mulKmx U)); rewrite mulmxV //; apply/matrixP => i j; rewrite mul_diag_mx !mxE.
case: (i =P j) => [->|N]; by rewrite ?mulr1n ?mulr0n ?mulr0 ?mulfV.
Qed.
Lemma gram_inv j : gram_n p inputs \in unitmx ->
  invmx (gram_n p (scale_each vs inputs)) j j = invmx (gram_n p inputs) j j / (dfun vs j * cjC (dfun vs j)).
Proof.
move=> U; rewrite gram_scale.
have U3 : D *m gram_n p inputs *m D' \in unitmx by rewrite !unitmx_mul D_u D_u' U.
have -> : invmx (D *m gram_n p inputs *m D') = invmx D' *m (invmx (gram_n p inputs) *m invmx D).
  apply: (can_inj (mulKmx U3)); rewrite mulmxV // -!mulmxA (mulKVmx D_u') (mulKVmx U) mulmxV //; exact: D_u.
rewrite !inv_diag ?D_u ?D_u' // mul_diag_mx mxE mul_mx_diag !mxE; by rewrite mulrC -mulrA -invfM.
Qed.
End Gram.

Lemma Cmod_cj (z : C) : Cmod (Cconj z) = Cmod z.
Proof. by rewrite /Cmod /Cconj /=; congr sqrt; ring. Qed.
Lemma sqrt_scale (x d : C) : d <> RtoC 0 -> sqrt (Cmod (x / (d * cjC d))) = Rdiv (sqrt (Cmod x)) (Cmod d).
Proof.
move=> N; have P := proj1 (Cmod_gt_0 d) N.
have N1 : d != 0 by apply/eqP.
have N2 : cjC d != 0 by rewrite fmorph_eq0.
have -> : Cmod (x / (d * cjC d)) = Rdiv (Cmod x) (Rmult (Cmod d) (Cmod d)).
  have -> : x / (d * cjC d) = Cdiv x (Cmult d (Cconj d)).
    rewrite /Cdiv -[_ / _]/(Cmult x (Cinvs (Cmult d (Cconj d)))) /Cinvs ifF //; apply/negbTE; exact: mulf_neq0.
  rewrite Cmod_div; last by apply/eqP; exact: mulf_neq0.
  by rewrite Cmod_mult Cmod_cj.
rewrite sqrt_div_alt; last by nra.
rewrite sqrt_square //; lra.
Qed.

Lemma nres_scale u vs inputs line row : size vs = size inputs -> nonzero_all vs ->
  l_nres (scale_each vs inputs) (List.map (Cmult u) line) (scale_row (fun j => u / dfun vs j) row) = Rmult (Cmod u) (l_nres inputs line row).
Proof.
move=> L Hv; rewrite /l_nres size_map size_scale_each //.
have E t : (List.map (Cmult u) line)`_t - \sum_(j < size inputs) (scale_row (fun j => u / dfun vs j) row)`_j * entry (scale_each vs inputs) j t
   = Cmult u (line`_t - \sum_(j < size inputs) row`_j * entry inputs j t).
  rewrite nth_mulmap -[Cmult u _]/(u * _) mulrBr big_distrr /=; congr (_ - _); apply: eq_bigr => j _; rewrite nth_scale_row entry_scale //.
  have N : dfun vs j != 0 by apply/eqP; exact: dfun_nz.
  by rewrite mulrACA -[u / _ * _]mulrA mulVf // mulr1.
set S := \big[Rplus/R0]_(t < _) _; set S' := \big[Rplus/R0]_(t < _) _.
have -> : S = Rmult (Rmult (Cmod u) (Cmod u)) S'.
  rewrite /S /S'; elim/big_rec2: _ => [|t x y _ ->]; first by ring.
  rewrite E Cmod_mult; ring.
rewrite sqrt_mult_alt; last by have := Cmod_ge_0 u; nra.
rewrite sqrt_square //; exact: Cmod_ge_0.
Qed.

Definition scale_errors (us vs : list C) (err : list (list ext)) : list (list ext) :=
  List.map (fun p => [seq xmul (Fin (Rdiv (Cmod p.1) (Cmod (dfun vs q.1)))) q.2 | q <- zip (iota 0 (size p.2)) p.2]) (combine us err).

#[local] Arguments xdiv : simpl never.
#[local] Arguments xmul : simpl never.
Lemma error_scale us vs outputs inputs transfer ivs : size us = size outputs -> size vs = size inputs -> size transfer = size outputs ->
  size ivs = size outputs -> nonzero_all us -> nonzero_all vs ->
  l_error (scale_each us outputs) (scale_each vs inputs) (scale_table us vs transfer) ivs = rmap (scale_errors us vs) (l_error outputs inputs transfer ivs).
Proof.
move=> L1 L2 L3 L4 Hu Hv.
rewrite (@l_error_n (size inputs)) ?size_scale_each // (@l_error_n (size inputs)) // columns_scale //= gram_unit //.
case: ifP => //= U; congr Ok; move: (INR (columns_of outputs)) => n; set r := Rdiv _ _.
have E u m line row : u <> RtoC 0 ->
  [seq xmul (xdiv (xdiv (Fin (l_nres (scale_each vs inputs) (List.map (Cmult u) line) (scale_row (fun j => u / dfun vs j) row))) (Fin r)) (Fin m))
         (Fin (sqrt (Cmod (invmx (gram_n (size inputs) (scale_each vs inputs)) j j)))) | j <- fintype.enum 'I_(size inputs)]
  = (fun l => [seq xmul (Fin (Rdiv (Cmod u) (Cmod (dfun vs q.1)))) q.2 | q <- zip (iota 0 (size l)) l])
    [seq xmul (xdiv (xdiv (Fin (l_nres inputs line row)) (Fin r)) (Fin m)) (Fin (sqrt (Cmod (invmx (gram_n (size inputs) inputs) j j)))) | j <- fintype.enum 'I_(size inputs)].
  move=> Nu; rewrite size_map size_enum_ord -val_enum_ord zip_map -map_comp; apply: eq_map => j; rewrite /comp; cbn [fst snd].
  rewrite nres_scale // gram_inv // sqrt_scale; last exact: dfun_nz.
  have Pu := proj1 (Cmod_gt_0 u) Nu.
  have Pv := proj1 (Cmod_gt_0 _) (dfun_nz (j:=j) Hv).
  by rewrite -[Fin (Rmult (Cmod u) _)]/(xmul (Fin (Cmod u)) (Fin (l_nres inputs line row))) !xdiv_mul // xmul_mul.
elim: us outputs transfer ivs L1 L3 L4 Hu => [|u us IH] [|e outputs] [|z transfer] [|iv ivs] //= [L1] [L3] [L4] Hu; inversion Hu; subst.
rewrite E //; congr (_ :: _); exact: IH.
Qed.
