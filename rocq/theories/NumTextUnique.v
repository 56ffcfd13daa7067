(** A number has one rounded value and one text. *)
From Coq Require Import QArith Qabs Qpower Lqa.
From Verif Require Import Base NumTextModel SpecNumText DateProofs NumTextProofs DateText.
Open Scope Z_scope. Local Open Scope list_scope.

Lemma ten_inj a b : (tenth a == tenth b)%Q -> a = b.
Proof. intros E. destruct (Z.lt_trichotomy a b) as [L|[L|L]]; [|exact L|]; pose proof (ten_lt _ _ L); lra. Qed.
Lemma rounded_unique p x v w : rounded p x v -> rounded p x w -> (v == w)%Q.
Proof.
  intros (Sv & Nv & Tv) (Sw & Nw & Tw). assert (E : (Qabs (w - x) == Qabs (v - x))%Q) by (apply Qle_antisym; auto).
  destruct (Tv w Sw E) as [G|(m & k & _ & Ev & Dv)]; [symmetry; exact G|]. destruct (Tw v Sv (Qeq_sym _ _ E)) as [G|(n & j & _ & Ew & Dw)]; [exact G|exfalso].
  assert (j = k). { apply ten_inj. rewrite <- Dv, <- Dw. rewrite <- Qabs_opp. apply Qabs_wd. ring. } subst j.
  assert (Q : (w - v == inject_Z (2 * n - 2 * m) * tenth k)%Q) by (rewrite Ev, Ew; unfold Z.sub; rewrite inject_Z_plus, inject_Z_opp; ring).
  rewrite Q, Qabs_Qmult, Qabs_inj in Dv. pose proof (ten_pos k). rewrite (Qabs_pos (tenth k)) in Dv by lra.
  assert (O : (inject_Z (Z.abs (2 * n - 2 * m)) == inject_Z 1)%Q) by (apply (Qmult_inj_r _ _ (tenth k)); [lra|rewrite Dv; change (inject_Z 1) with 1%Q; ring]).
  apply (proj1 (inject_Z_injective _ _)) in O. lia.
Qed.

(** a numeral without useless zeros *)
Lemma number_cons d l : number (d :: l) = d * 10 ^ Z.of_nat (length l) + number l.
Proof. change (d :: l) with ([d] ++ l). rewrite number_app. cbn [number fold_left]. reflexivity. Qed.
Lemma number_head d l : are_digits (d :: l) -> d <> 0 -> 10 ^ Z.of_nat (length l) <= number (d :: l) < 10 ^ Z.of_nat (S (length l)).
Proof.
  intros H N. split; [|apply (number_bound (d :: l) H)]. rewrite number_cons. pose proof (number_bound l (fun x Hx => H x (or_intror Hx))). assert (0 <= d <= 9) by (apply H; left; reflexivity).
  pose proof (Z.pow_pos_nonneg 10 (Z.of_nat (length l)) ltac:(lia) ltac:(lia)). nia.
Qed.
Definition canonical (l : list Z) : Prop := l = [0] \/ exists d r, l = d :: r /\ d <> 0.
Lemma head_length d l e r : are_digits (d :: l) -> are_digits (e :: r) -> d <> 0 -> e <> 0 -> number (d :: l) = number (e :: r) -> length l = length r.
Proof.
  intros Hd He Nd Ne E. pose proof (number_head d l Hd Nd) as B. pose proof (number_head e r He Ne) as C. rewrite E in B.
  destruct (Nat.lt_trichotomy (length l) (length r)) as [L|[L|L]]; [exfalso|exact L|exfalso].
  - assert (10 ^ Z.of_nat (S (length l)) <= 10 ^ Z.of_nat (length r)) by (apply Z.pow_le_mono_r; lia). lia.
  - assert (10 ^ Z.of_nat (S (length r)) <= 10 ^ Z.of_nat (length l)) by (apply Z.pow_le_mono_r; lia). lia.
Qed.
Lemma canonical_unique l r : are_digits l -> are_digits r -> canonical l -> canonical r -> number l = number r -> l = r.
Proof.
  intros Hl Hr Cl Cr E. destruct Cl as [->|(d & l' & -> & Nd)], Cr as [->|(e & r' & -> & Ne)].
  - reflexivity.
  - pose proof (number_head e r' Hr Ne). pose proof (Z.pow_pos_nonneg 10 (Z.of_nat (length r')) ltac:(lia) ltac:(lia)). change (number [0]) with 0 in E. lia.
  - pose proof (number_head d l' Hl Nd). pose proof (Z.pow_pos_nonneg 10 (Z.of_nat (length l')) ltac:(lia) ltac:(lia)). change (number [0]) with 0 in E. lia.
  - apply digits_unique; auto. cbn [length]. f_equal. eapply head_length; eassumption.
Qed.

(** the digits after the point *)
Lemma part_last w l : are_digits l -> last l 1 <> 0 -> l <> [] -> ~ (10 | number (w ++ l)).
Proof.
  intros H N E [k K]. destruct (exists_last E) as (l' & d & ->). rewrite last_last in N. rewrite app_assoc, number_snoc in K.
  assert (0 <= d <= 9) by (apply H, in_app_iff; right; left; reflexivity). lia.
Qed.
Lemma part_length a l b r e : are_digits l -> are_digits r -> last l 1 <> 0 -> last r 1 <> 0 ->
  (inject_Z (number (a ++ l)) * tenth (e - Z.of_nat (length l)) == inject_Z (number (b ++ r)) * tenth (e - Z.of_nat (length r)))%Q ->
  length l = length r /\ number (a ++ l) = number (b ++ r).
Proof.
  intros Hl Hr Nl Nr E.
  assert (W : forall a l b r, are_digits r -> last r 1 <> 0 -> (inject_Z (number (a ++ l)) * tenth (e - Z.of_nat (length l)) == inject_Z (number (b ++ r)) * tenth (e - Z.of_nat (length r)))%Q -> ~ (length l < length r)%nat).
  { clear. intros a l b r Hr Nr E L. apply (part_last b r Hr Nr); [intros ->; cbn in L; lia|].
    exists (number (a ++ l) * 10 ^ (Z.of_nat (length r) - Z.of_nat (length l) - 1)). apply inject_Z_injective. rewrite !inject_Z_mult, <- ten_Z by lia.
    apply (Qmult_inj_r _ _ (tenth (e - Z.of_nat (length r)))); [pose proof (ten_pos (e - Z.of_nat (length r))); lra|]. rewrite <- E, <- !Qmult_assoc.
    apply Qmult_comp; [reflexivity|]. change (inject_Z 10) with (tenth 1). rewrite <- !ten_plus.
    replace (Z.of_nat (length r) - Z.of_nat (length l) - 1 + (1 + (e - Z.of_nat (length r)))) with (e - Z.of_nat (length l)) by lia. reflexivity. }
  assert (Len : length l = length r). { pose proof (W a l b r Hr Nr E). pose proof (W b r a l Hl Nl (Qeq_sym _ _ E)). lia. }
  split; [exact Len|]. apply inject_Z_injective. rewrite Len in E. eapply Qmult_inj_r; [|exact E]. pose proof (ten_pos (e - Z.of_nat (length r))). lra.
Qed.
Lemma parts_equal a l b r : are_digits a -> are_digits l -> are_digits b -> are_digits r -> canonical a -> canonical b -> length l = length r -> number (a ++ l) = number (b ++ r) -> a = b /\ l = r.
Proof.
  intros Ha Hl Hb Hr Ca Cb Len E. rewrite !number_app, Len in E. pose proof (number_bound l Hl) as B1. pose proof (number_bound r Hr) as B2. rewrite Len in B1.
  set (g := 10 ^ Z.of_nat (length r)) in *. assert (E1 : number a = number b) by (destruct (Z.lt_trichotomy (number a) (number b)) as [Q|[Q|Q]]; [exfalso; nia|exact Q|exfalso; nia]). assert (E2 : number l = number r) by (rewrite E1 in E; lia).
  split; [apply canonical_unique; assumption|apply digits_unique; assumption].
Qed.

(** the exponent *)
Lemma sci_bounds d l e : are_digits (d :: l) -> d <> 0 ->
  (tenth e <= inject_Z (number ([d] ++ l)) * tenth (e - Z.of_nat (length l)) /\ inject_Z (number ([d] ++ l)) * tenth (e - Z.of_nat (length l)) < tenth (e + 1))%Q.
Proof.
  intros H N. destruct (number_head d l H N) as [B1 B2]. cbn [app]. pose proof (ten_pos (e - Z.of_nat (length l))) as P. split.
  - replace e with (Z.of_nat (length l) + (e - Z.of_nat (length l))) at 1 by lia. rewrite ten_plus. apply Qmult_le_r; [exact P|]. rewrite ten_Z, <- Zle_Qle by lia. exact B1.
  - replace (e + 1) with (Z.of_nat (S (length l)) + (e - Z.of_nat (length l))) by lia. rewrite ten_plus. apply Qmult_lt_r; [exact P|]. rewrite ten_Z, <- Zlt_Qlt by lia. exact B2.
Qed.
Lemma exponent_unique l r : are_digits l -> are_digits r -> (2 <= length l)%nat -> (2 <= length r)%nat -> ((3 <= length l)%nat -> hd 0 l <> 0) -> ((3 <= length r)%nat -> hd 0 r <> 0) ->
  number l = number r -> l = r.
Proof.
  intros Hl Hr L R Zl Zr E.
  assert (W : forall l r, are_digits l -> are_digits r -> (2 <= length l)%nat -> ((3 <= length r)%nat -> hd 0 r <> 0) -> number l = number r -> ~ (length l < length r)%nat).
  { clear. intros l r Hl Hr L Zr E Lt. destruct r as [|d r]; [cbn in Lt; lia|]. pose proof (number_head d r Hr (Zr ltac:(lia))) as [B _]. pose proof (number_bound l Hl) as [_ C]. cbn [length] in Lt.
    assert (10 ^ Z.of_nat (length l) <= 10 ^ Z.of_nat (length r)) by (apply Z.pow_le_mono_r; lia). lia. }
  apply digits_unique; auto. pose proof (W l r Hl Hr L Zr E). pose proof (W r l Hr Hl R Zl (eq_sym E)). lia.
Qed.

Lemma written_unique p v t s : 1 <= p -> written p v t -> written p v s -> t = s.
Proof.
  intros Hp (n1 & w1 & a1 & x1 & A1 & B1 & -> & V1 & N1 & C1 & L1 & X1) (n2 & w2 & a2 & x2 & A2 & B2 & -> & V2 & N2 & C2 & L2 & X2).
  assert (n1 = n2) by (destruct n1, n2; try reflexivity; [destruct N1 as [N1 _]; rewrite <- N2 in N1; symmetry; apply N1; reflexivity|destruct N2 as [N2 _]; rewrite <- N1 in N2; apply N2; reflexivity]). subst n2.
  rewrite V1 in V2. rewrite <- !Qmult_assoc in V2. assert (NZ : ~ ((if n1 then -1 # 1 else 1 # 1) == 0)%Q) by (destruct n1; discriminate). apply (proj1 (Qmult_inj_l _ _ _ NZ)) in V2.
  destruct x1 as [[s1 l1]|], x2 as [[s2 l2]|]; [|destruct X1; contradiction|destruct X2; contradiction|].
  - destruct X1 as (U & (d1 & E1 & Z1) & D1 & M1 & H1), X2 as (_ & (d2 & E2 & Z2) & D2 & M2 & H2). subst w1 w2.
    set (e1 := if s1 then - number l1 else number l1) in *. set (e2 := if s2 then - number l2 else number l2) in *.
    assert (G1 : are_digits (d1 :: a1)) by (intros x [<-|Hx]; [apply A1; left; reflexivity|apply B1; exact Hx]).
    assert (G2 : are_digits (d2 :: a2)) by (intros x [<-|Hx]; [apply A2; left; reflexivity|apply B2; exact Hx]).
    pose proof (sci_bounds d1 a1 e1 G1 Z1) as [P1 P1']. pose proof (sci_bounds d2 a2 e2 G2 Z2) as [P2 P2'].
    assert (Ee : e1 = e2). { rewrite V2 in P1, P1'. destruct (Z.lt_trichotomy e1 e2) as [L|[L|L]]; [exfalso|exact L|exfalso]; [pose proof (ten_le (e1 + 1) e2 ltac:(lia))|pose proof (ten_le (e2 + 1) e1 ltac:(lia))]; lra. }
    assert (K1 : 0 <= number l1) by (apply number_bound; assumption). assert (K2 : 0 <= number l2) by (apply number_bound; assumption).
    assert (e1 <> 0).
    { intros Q. apply U. right. assert (Av : (Qabs v == inject_Z (number ([d1] ++ a1)) * tenth (e1 - Z.of_nat (length a1)))%Q).
      { rewrite V1, <- Qmult_assoc, Qabs_Qmult. pose proof (ten_pos e1). set (W := (inject_Z (number ([d1] ++ a1)) * tenth (e1 - Z.of_nat (length a1)))%Q) in *. rewrite (Qabs_pos W) by lra. destruct n1; apply Qmult_1_l. }
      rewrite Av. rewrite Q in P1, P1' |- *. split; [pose proof (ten_le (-4) 0 ltac:(lia)); lra|pose proof (ten_le (0 + 1) p ltac:(lia)); lra]. }
    assert (s1 = s2 /\ number l1 = number l2) as [<- El] by (unfold e1, e2 in *; destruct s1, s2; split; try reflexivity; lia).
    assert (l1 = l2) by (apply exponent_unique; assumption). subst l2.
    fold e1 in V2. rewrite <- Ee in V2. destruct (part_length [d1] a1 [d2] a2 e1 B1 B2 L1 L2 V2) as [Len En].
    destruct (parts_equal [d1] a1 [d2] a2) as [-> ->]; auto; try (right; eexists; eexists; split; [reflexivity|assumption]).
  - destruct (part_length w1 a1 w2 a2 0 B1 B2 L1 L2 V2) as [Len En]. destruct (parts_equal w1 a1 w2 a2) as [-> ->]; auto.
Qed.

Lemma gtext_iff p x t : 1 <= p -> (gtext p x = t <-> exists v, rounded p x v /\ written p v t).
Proof.
  intros Hp. destruct (gtext_spec p x Hp) as (v & R & W). split; [intros <-; exists v; auto|]. intros (v' & R' & W').
  apply (written_unique p v); [exact Hp|exact W|]. eapply written_wd; [|exact W']. eapply rounded_unique; eassumption.
Qed.
