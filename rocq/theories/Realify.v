(** Complex matrices as real ones of twice the size. *)
From Coq Require Import Reals Lra.
From Coquelicot Require Import Complex.
From mathcomp Require Import all_ssreflect all_algebra.
From Verif Require Import WlseModel WlseProofs CField EvenOdd.
Set Implicit Arguments.
Unset Strict Implicit.
Unset Printing Implicit Defensive.
Import GRing.Theory.
Local Open Scope ring_scope.

Lemma half_bound q (k : 'I_(2 * q)) : (k./2 < q)%N.
Proof. by rewrite -(ltn_pmul2l (m := 2)) // !mul2n (leq_ltn_trans _ (ltn_ord k)) ?mul2n // -{2}(odd_double_half k) leq_addl. Qed.
Definition half_ord q (k : 'I_(2 * q)) : 'I_q := Ordinal (half_bound k).

Lemma half_even q (j : 'I_q) : half_ord (ord_even j) = j.
Proof. by apply: val_inj; rewrite /= mul2n doubleK. Qed.
Lemma half_odd q (j : 'I_q) : half_ord (ord_odd j) = j.
Proof. by apply: val_inj; rewrite /= mul2n uphalf_double. Qed.
Lemma odd_even q (j : 'I_q) : odd (ord_even j) = false.
Proof. by rewrite /= mul2n odd_double. Qed.
Lemma odd_odd q (j : 'I_q) : odd (ord_odd j) = true.
Proof. by rewrite /= mul2n odd_double. Qed.
Lemma even_or_odd q (k : 'I_(2 * q)) : k = if odd k then ord_odd (half_ord k) else ord_even (half_ord k).
Proof. by apply: val_inj; have E := odd_double_half k; case: (odd k) E => /= E; rewrite (mul2n k./2). Qed.

Lemma sum_pairs (T : zmodType) q (f : nat -> T) : \sum_(0 <= k < 2 * q) f k = \sum_(0 <= j < q) (f (2 * j)%N + f (2 * j).+1).
Proof.
elim: q => [|q IH]; first by rewrite muln0 !big_geq.
by rewrite mulnS add2n !big_nat_recr //= IH !addrA.
Qed.
Lemma sum_even_odd (T : zmodType) q (f : 'I_(2 * q) -> T) : \sum_k f k = \sum_(j < q) (f (ord_even j) + f (ord_odd j)).
Proof.
case: q f => [|q] f; first by rewrite !big_ord0.
pose g k := f (inord k : 'I_(2 * q.+1)).
have -> : \sum_k f k = \sum_(0 <= k < 2 * q.+1) g k.
  rewrite big_mkord; apply: eq_bigr => k _; rewrite /g; congr (f _).
  by apply: val_inj; rewrite /= insubdK //; exact: ltn_ord.
rewrite sum_pairs big_mkord; apply: eq_bigr => j _; congr (f _ + f _); apply: val_inj; rewrite /= insubdK //.
- exact: even_bound.
- exact: odd_bound.
Qed.

(** real and imaginary part, as complex numbers *)
Definition re (z : C) : C := RtoC (Re z).
Definition im (z : C) : C := RtoC (Im z).
Lemma re_additive : additive re. Proof. by move=> x y; apply: injective_projections; rewrite /re /Re /GRing.add /GRing.opp /=; ring. Qed.
Lemma im_additive : additive im. Proof. by move=> x y; apply: injective_projections; rewrite /im /Im /GRing.add /GRing.opp /=; ring. Qed.
Canonical re_add := Eval hnf in Additive re_additive.
Canonical im_add := Eval hnf in Additive im_additive.
Lemma re_mul x y : re (x * y) = re x * re y - im x * im y.
Proof. by apply: injective_projections; rewrite /re /im /Re /Im /GRing.add /GRing.opp /GRing.mul /=; ring. Qed.
Lemma im_mul x y : im (x * y) = im x * re y + re x * im y.
Proof. by apply: injective_projections; rewrite /re /im /Re /Im /GRing.add /GRing.opp /GRing.mul /=; ring. Qed.
Lemma re_cj x : re (cjC x) = re x. Proof. by []. Qed.
Lemma im_cj x : im (cjC x) = - im x. Proof. by apply: injective_projections; rewrite /re /im /Re /Im /GRing.add /GRing.opp /GRing.mul /=; lra. Qed.
Lemma cj_re x : cjC (re x) = re x. Proof. by apply: injective_projections; rewrite /re /im /Re /Im /GRing.add /GRing.opp /GRing.mul /=; lra. Qed.
Lemma cj_im x : cjC (im x) = im x. Proof. by apply: injective_projections; rewrite /re /im /Re /Im /GRing.add /GRing.opp /GRing.mul /=; lra. Qed.
Lemma re_im x : re x + (Ci : C) * im x = x. Proof. by apply: injective_projections; rewrite /re /im /Re /Im /GRing.add /GRing.opp /GRing.mul /=; ring. Qed.
Lemma re1 : re 1 = 1. Proof. by []. Qed.
Lemma im1 : im 1 = 0. Proof. by []. Qed.

Definition rho m n (A : 'M[C]_(m, n)) : 'M[C]_(2 * m, 2 * n) :=
  \matrix_(i, j)
    if odd i then (if odd j then re (A (half_ord i) (half_ord j)) else im (A (half_ord i) (half_ord j)))
    else (if odd j then - im (A (half_ord i) (half_ord j)) else re (A (half_ord i) (half_ord j))).
Definition vec n (x : 'cV[C]_n) : 'cV[C]_(2 * n) :=
  \col_i if odd i then im (x (half_ord i) 0) else re (x (half_ord i) 0).

Definition eo := (half_even, half_odd, odd_even, odd_odd).

Lemma rho_mul m n p (A : 'M[C]_(m, n)) (B : 'M[C]_(n, p)) : rho (A *m B) = rho A *m rho B.
Proof.
apply/matrixP => i j; rewrite !mxE sum_even_odd.
under [RHS]eq_bigr => k _ do rewrite !mxE !eo.
case: (odd i); case: (odd j); rewrite raddf_sum -?sumrN; apply: eq_bigr => k _; rewrite [in LHS]/= ?re_mul ?im_mul ?mulrN ?mulNr ?opprD ?opprK //.
all: by rewrite addrC.
Qed.
Lemma rho_vec m n (A : 'M[C]_(m, n)) (x : 'cV[C]_n) : vec (A *m x) = rho A *m vec x.
Proof.
apply/matrixP => i j; rewrite !mxE sum_even_odd.
under [RHS]eq_bigr => k _ do rewrite !mxE !eo.
by case: (odd i); rewrite raddf_sum; apply: eq_bigr => k _; rewrite [in LHS]/= ?re_mul ?im_mul ?mulNr.
Qed.
Lemma rho_herm m n (A : 'M[C]_(m, n)) : herm cjC (rho A) = rho (herm cjC A).
Proof.
apply/matrixP => i j; rewrite !mxE.
by case: (odd i); case: (odd j); rewrite ?re_cj ?im_cj ?rmorphN ?cj_re ?cj_im ?opprK.
Qed.
Lemma rho1 n : rho (1%:M : 'M[C]_n) = 1%:M.
Proof.
apply/matrixP => i j; rewrite !mxE [in RHS](even_or_odd i) [in RHS](even_or_odd j) -!val_eqE.
case: (odd i); case: (odd j); rewrite /= (mul2n i./2) (mul2n j./2) ?eqSS.
- by rewrite (inj_eq double_inj); case: eqP => _; rewrite ?re1 ?raddf0.
- rewrite [_.*2.+1 == _](_ : _ = false); first by case: eqP => _; rewrite ?im1 ?raddf0.
  by apply/negP => /eqP /(f_equal odd); rewrite /= !odd_double.
- rewrite [_.*2 == _](_ : _ = false); first by case: eqP => _; rewrite ?im1 ?raddf0 ?oppr0.
  by apply/negP => /eqP /(f_equal odd); rewrite /= !odd_double.
- by rewrite (inj_eq double_inj); case: eqP => _; rewrite ?re1 ?raddf0.
Qed.
Lemma vec_inj n (x y : 'cV[C]_n) : vec x = vec y -> x = y.
Proof.
move=> H; apply/matrixP => i j; rewrite ord1 -(re_im (x i 0)) -(re_im (y i 0)).
have := f_equal (fun v : 'cV_(2 * n) => v (ord_even i) 0) H; have := f_equal (fun v : 'cV_(2 * n) => v (ord_odd i) 0) H.
by rewrite !mxE !eo => -> ->.
Qed.
Lemma vec0 n : vec (0 : 'cV[C]_n) = 0.
Proof. by apply/matrixP => i j; rewrite !mxE; case: (odd i); rewrite raddf0. Qed.

Lemma rho_unit n (A : 'M[C]_n) : (rho A \in unitmx) = (A \in unitmx).
Proof.
apply/idP/idP => [U|U].
  rewrite -unitmx_tr unitmxE unitfE; apply/det0P => -[v nz E].
  have : A *m v^T = 0 by rewrite -[A]trmxK -trmx_mul E trmx0.
  move=> /(f_equal (@vec n)); rewrite rho_vec vec0 => /(f_equal (mulmx (invmx (rho A)))).
  rewrite mulKmx // mulmx0 -(vec0 n) => /vec_inj /(f_equal trmx); rewrite trmxK trmx0 => E0.
  by rewrite E0 eqxx in nz.
have := rho1 n; rewrite -(mulmxV U) rho_mul => /mulmx1_unit; case=> //.
Qed.
Lemma rho_inv n (A : 'M[C]_n) : A \in unitmx -> invmx (rho A) = rho (invmx A).
Proof.
move=> U; have V : rho A \in unitmx by rewrite rho_unit.
by rewrite -[LHS]mulmx1 -(rho1 n) -(mulmxV U) rho_mul mulKmx.
Qed.

(** the plain least-square estimates correspond *)
Lemma wlse_real n q (x : 'cV[C]_n) (y : 'M[C]_(n, q)) : wlse cjC (vec x) (rho y) None = omap (@vec q) (wlse cjC x y None).
Proof.
have E : normal cjC (rho y) None = rho (normal cjC y None) by rewrite /normal /= rho_herm -rho_mul.
rewrite /wlse E rho_unit; case: ifP => //= U; congr Some.
by rewrite rho_inv // /rhs /= rho_herm -!rho_vec.
Qed.
