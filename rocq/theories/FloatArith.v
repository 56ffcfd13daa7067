(** IEEE-754 binary64 instance of [Arith] (Flocq, round to nearest even).
    All Python floats and numpy float64 operations used by the code are the
    correctly rounded ones. *)
From Coq Require Import Reals Psatz SpecFloat.
From Flocq Require Import Core IEEE754.BinarySingleNaN.
From Verif Require Import Base Arith OrdLaws.

Definition b64 := binary_float 53 1024.

Definition prec53 : Prec_gt_0 53 := eq_refl.
Definition emax1024 : Prec_lt_emax 53 1024 := eq_refl.

Definition f_add : b64 -> b64 -> b64 := @Bplus 53 1024 prec53 emax1024 mode_NE.
Definition f_sub : b64 -> b64 -> b64 := @Bminus 53 1024 prec53 emax1024 mode_NE.
Definition f_mul : b64 -> b64 -> b64 := @Bmult 53 1024 prec53 emax1024 mode_NE.
Definition f_div : b64 -> b64 -> b64 := @Bdiv 53 1024 prec53 emax1024 mode_NE.
(** float(n) for an int n (infinite instead of OverflowError beyond 2^1024) *)
Definition f_ofZ (z : Z) : b64 := @binary_normalize 53 1024 prec53 emax1024 mode_NE z 0 false.

(** int(np.floor(x)): OverflowError on infinities, ValueError on NaN *)
Definition f_floor (x : b64) : res Z :=
  match x with
  | B754_zero _ => Ok 0%Z
  | B754_infinity _ => Err OverflowError
  | B754_nan => Err ValueError
  | B754_finite s m e _ =>
      let n := if s then Zneg m else Zpos m in
      Ok (if (0 <=? e)%Z then n * 2 ^ e else n / 2 ^ (- e))%Z
  end.
Definition f_ceil (x : b64) : res Z :=
  match f_floor (Bopp x) with Ok z => Ok (- z)%Z | Err e => Err e end.

Definition f_lit (n d : Z) : b64 := f_div (f_ofZ n) (f_ofZ d).

Definition FA : Arith := {|
  num := b64;
  nadd := f_add; nsub := f_sub; nmul := f_mul; ndiv := f_div; nabs := @Babs 53 1024;
  nleb := @Bleb 53 1024; nltb := @Bltb 53 1024; neqb := @Beqb 53 1024;
  nzero := B754_zero false; n1 := f_ofZ 1; nofZ := f_ofZ;
  nfloor := f_floor; nceil := f_ceil;
  nfinite := @is_finite 53 1024;
  nrtol := f_lit 1 100000;
  natol := f_lit 1 100000000
|}.

(** ** Order laws *)
Definition lev (x : b64) : Z :=
  match x with B754_infinity true => -1 | B754_infinity false => 1 | _ => 0 end.

Lemma SFleb_cmp (x y : b64) : Bleb x y = match Bcompare x y with Some Gt | None => false | _ => true end.
Proof. unfold Bleb, SFleb, Bcompare. destruct (SFcompare (B2SF x) (B2SF y)) as [[]|]; reflexivity. Qed.
Lemma SFltb_cmp (x y : b64) : Bltb x y = match Bcompare x y with Some Lt => true | _ => false end.
Proof. unfold Bltb, SFltb, Bcompare. destruct (SFcompare (B2SF x) (B2SF y)) as [[]|]; reflexivity. Qed.
Lemma SFeqb_cmp (x y : b64) : Beqb x y = match Bcompare x y with Some Eq => true | _ => false end.
Proof. unfold Beqb, SFeqb, Bcompare. destruct (SFcompare (B2SF x) (B2SF y)) as [[]|]; reflexivity. Qed.

Lemma Bcompare_lev (x y : b64) : is_nan x = false -> is_nan y = false ->
  Bcompare x y = Some (match (lev x ?= lev y)%Z with
                       | Eq => if is_finite x then Rcompare (B2R x) (B2R y) else Eq
                       | c => c end).
Proof.
  intros Hx Hy.
  destruct (is_finite x) eqn:Fx, (is_finite y) eqn:Fy.
  - rewrite Bcompare_correct by assumption. destruct x, y; try discriminate; reflexivity.
  - destruct x as [?|?| |? ? ? ?], y as [?|[]| |? ? ? ?]; try discriminate; reflexivity.
  - destruct x as [?|[]| |? ? ? ?], y as [?|?| |? ? ? ?]; try discriminate; reflexivity.
  - destruct x as [?|[]| |? ? ? ?], y as [?|[]| |? ? ? ?]; try discriminate; reflexivity.
Qed.

Lemma Bcompare_nan (x y : b64) c : Bcompare x y = Some c -> is_nan x = false /\ is_nan y = false.
Proof. destruct x, y; try (split; reflexivity); discriminate. Qed.

Definition fle (x y : b64) : Prop :=
  (lev x < lev y)%Z \/ (lev x = lev y /\ (is_finite x = true -> (B2R x <= B2R y)%R)).

Lemma Bleb_fle (x y : b64) :
  Bleb x y = true <-> is_nan x = false /\ is_nan y = false /\ fle x y.
Proof.
  rewrite SFleb_cmp. unfold fle. split.
  - intros H. destruct (Bcompare x y) as [c|] eqn:E; [|discriminate].
    destruct (Bcompare_nan _ _ _ E) as [Nx Ny]. split; [exact Nx|]. split; [exact Ny|].
    rewrite (Bcompare_lev _ _ Nx Ny) in E. destruct (Z.compare_spec (lev x) (lev y)) as [L|L|L].
    + right. split; [exact L|]. intros F. rewrite F in E. injection E as <-.
      destruct (Rcompare_spec (B2R x) (B2R y)); [lra|lra|discriminate].
    + left; exact L.
    + injection E as <-; discriminate.
  - intros (Nx & Ny & H). rewrite (Bcompare_lev _ _ Nx Ny).
    destruct (Z.compare_spec (lev x) (lev y)) as [L|L|L].
    + destruct (is_finite x); [|reflexivity].
      destruct H as [H|[_ H]]; [lia|]. specialize (H eq_refl).
      destruct (Rcompare_spec (B2R x) (B2R y)); [reflexivity|reflexivity|lra].
    + reflexivity.
    + destruct H as [H|[H _]]; lia.
Qed.

Lemma lev_finite (x y : b64) : is_nan x = false -> is_nan y = false -> lev x = lev y -> is_finite x = is_finite y.
Proof. destruct x as [|[]| |], y as [|[]| |]; simpl; intros; try discriminate; reflexivity. Qed.

Lemma fle_total x y : is_nan x = false -> is_nan y = false -> fle x y \/ fle y x.
Proof.
  intros Nx Ny. unfold fle. destruct (Z.lt_trichotomy (lev x) (lev y)) as [H|[H|H]]; auto.
  rewrite <- H. destruct (Rle_dec (B2R x) (B2R y)); [left|right]; right; split; auto; intros _; lra.
Qed.

Lemma fle_trans x y z : is_nan x = false -> is_nan y = false -> is_nan z = false -> fle x y -> fle y z -> fle x z.
Proof.
  unfold fle. intros Nx Ny Nz [H|[H1 H2]] [G|[G1 G2]]; try (left; lia).
  right. split; [lia|]. intros F. specialize (H2 F).
  rewrite (lev_finite x y Nx Ny H1) in F. specialize (G2 F). lra.
Qed.

Lemma f_add_nan x y : is_nan (f_add x y) = false -> is_nan x = false.
Proof. destruct x; simpl; auto. Qed.

Lemma Bltb_negb x y : is_nan x = false -> is_nan y = false -> @Bltb 53 1024 x y = negb (Bleb y x).
Proof.
  intros Nx Ny. rewrite SFltb_cmp, SFleb_cmp, (Bcompare_lev x y Nx Ny), (Bcompare_lev y x Ny Nx).
  rewrite (Z.compare_antisym (lev x) (lev y)). destruct (Z.compare_spec (lev x) (lev y)) as [L|L|L]; simpl; try reflexivity.
  rewrite (lev_finite x y Nx Ny L). destruct (is_finite y); [|reflexivity].
  rewrite (Rcompare_sym (B2R y)). destruct (Rcompare (B2R x) (B2R y)); reflexivity.
Qed.

Definition FA_ord : OrdLaws FA.
Proof.
  refine {| ok := fun x : num FA => @is_nan 53 1024 x = false |}; simpl.
  - intros x y H. apply Bleb_fle in H. tauto.
  - exact f_add_nan.
  - intros x y. rewrite SFltb_cmp, SFleb_cmp. destruct (Bcompare x y) as [[]|]; intros H; congruence.
  - intros x y z H1 H2. apply Bleb_fle in H1 as (Nx & Ny & H1). apply Bleb_fle in H2 as (_ & Nz & H2).
    apply Bleb_fle. split; [exact Nx|]. split; [exact Nz|]. exact (fle_trans x y z Nx Ny Nz H1 H2).
  - intros x y Nx Ny. destruct (fle_total x y Nx Ny); [left|right]; apply Bleb_fle; (split; [|split]); assumption.
  - exact Bltb_negb.
Defined.

(** sanity: the constants are the expected doubles and operations compute *)
Example f_lit_check :
  B2SF (f_lit 1 100000) = SpecFloat.S754_finite false 5902958103587057 (-69) /\
  f_floor (f_mul (f_div (f_ofZ 1) (f_ofZ 49)) (f_ofZ 49)) = Ok 0%Z /\
  f_ceil (f_lit (-7) 2) = Ok (-3)%Z /\ f_floor (f_lit (-7) 2) = Ok (-4)%Z.
Proof. vm_compute. repeat split. Qed.
