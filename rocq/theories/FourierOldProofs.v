(** The older Fourier functions. *)
From Coq Require Import Reals Lra QArith Qcanon Qreals.
From Coquelicot Require Import Complex.
From Verif Require Import Base BaseLemmas SliceLemmas Arith OrdLaws QcLemmas SyncModel SpecSet FourierModel SpecFourier FourierProofs FourierExact FourierReal
  FourierOldModel.
Open Scope nat_scope.

(** entry [n] of [exp((-1j*2*pi*freq/sampling_freq)*arange(N))] *)
Definition wave (f fs : num QA) (n : nat) : C := cis (- (2 * PI * (Qc2R f / Qc2R fs) * INR n)).
(** [z / N * 2] *)
Definition scale (N : nat) (z : C) : C := (z / RtoC (INR N) * RtoC 2)%C.

Notation ttf_old := (time_to_freq_old wave cmul cdot scale).
Notation ftc := (ft wave cmul cdot scale).

Lemma window_rows {V} (arr : list V) nb size shift : (nb - 1) * shift + size <= length arr ->
  exists rows, sliding_window arr (Z.of_nat nb) (Z.of_nat size) (Z.of_nat shift) = Ok rows /\ length rows = nb /\
    forall i r, nth_error rows i = Some r -> stretch arr (i * shift) size r.
Proof.
  intros H. unfold sliding_window. destruct nb as [|nb].
  - destruct (Z.leb_spec ((Z.of_nat 0 - 1) * Z.of_nat shift + Z.of_nat size) (Z.of_nat (length arr))); [|lia]. cbn [check bind].
    destruct (Z.ltb_spec (Z.of_nat 0) 0), (Z.ltb_spec (Z.of_nat size) 0); try lia. exists []. split; [reflexivity|]. split; [reflexivity|].
    intros [|]; discriminate.
  - destruct (Z.leb_spec ((Z.of_nat (S nb) - 1) * Z.of_nat shift + Z.of_nat size) (Z.of_nat (length arr))); [|nia]. cbn [check bind].
    destruct (Z.ltb_spec (Z.of_nat (S nb)) 0), (Z.ltb_spec (Z.of_nat size) 0); try lia. cbn [orb].
    eexists. split; [reflexivity|]. rewrite map_length, seq_length, !Nat2Z.id. split; [reflexivity|].
    intros i r. rewrite nth_error_map, nth_error_seq. destruct (Nat.ltb_spec i (S nb)) as [Hi|Hi]; [|discriminate].
    simpl. intros [= <-]. apply stretch_at. nia.
Qed.

Lemma window_small {V} (arr : list V) nb size shift : 1 <= nb -> length arr < (nb - 1) * shift + size ->
  sliding_window arr (Z.of_nat nb) (Z.of_nat size) (Z.of_nat shift) = Err AssertionError.
Proof.
  intros Hn H. unfold sliding_window.
  destruct (Z.leb_spec ((Z.of_nat nb - 1) * Z.of_nat shift + Z.of_nat size) (Z.of_nat (length arr))); [nia|reflexivity].
Qed.

Lemma cdot_scale (x x' w : list C) (k : C) : length x' = length x -> length x = length w ->
  (forall n u u', nth_error x n = Some u -> nth_error x' n = Some u' -> u' = (u * k)%C) -> cdot x' w = (cdot x w * k)%C.
Proof.
  revert x x'. induction w as [|v w IH]; intros [|u x] [|u' x'] E1 E2 H; try discriminate.
  - unfold cdot. simpl. ring.
  - unfold cdot in *. cbn [combine fold_right fst snd]. rewrite (IH x x').
    + rewrite (H 0 u u' eq_refl eq_refl). ring.
    + simpl in *. lia.
    + simpl in *. lia.
    + intros n a b Ha Hb. exact (H (S n) a b Ha Hb).
Qed.

Lemma Qc2R_div a b : b <> Q2Qc 0 -> Qc2R (a / b)%Qc = (Qc2R a / Qc2R b)%R.
Proof.
  intros Hb. assert (Hb' : Qc2R b <> 0%R).
  { unfold Qc2R. intros E. apply Hb. apply Qc_is_canon. simpl. apply eqR_Qeq. rewrite E. unfold Q2R. simpl. field. }
  apply (Rmult_eq_reg_r (Qc2R b)); [|exact Hb']. rewrite <- Qc2R_mul. unfold Rdiv. rewrite Rmult_assoc, Rinv_l, Rmult_1_r by exact Hb'.
  f_equal. field. exact Hb.
Qed.

(** the old transform of a window is the new coefficient *)
Lemma ft_kernel (f fs : Qc) L o y : fs <> Q2Qc 0 -> L <> 0 -> length y = L -> match o with Some a => length a = L | None => True end ->
  ftc y f fs o = Ok (cdot (kernel tone cmul (f / fs)%Qc L o) y).
Proof.
  intros Hfs HL Hy Ho. assert (HLR : RtoC (INR L) <> RtoC 0) by (intros E; injection E as E; revert E; apply not_0_INR, HL).
  assert (K : (RtoC (2 / INR L) = / RtoC (INR L) * RtoC 2)%C).
  { unfold Rdiv. rewrite RtoC_mult, RtoC_inv by (apply not_0_INR, HL). apply Cmult_comm. }
  assert (T : forall n, tone (f / fs)%Qc L n = (wave f fs n * RtoC (2 / INR L))%C).
  { intros n. unfold tone, wave. rewrite (Qc2R_div f fs Hfs). reflexivity. }
  unfold ft, kernel. destruct o as [a|].
  - rewrite Hy, Ho, Nat.eqb_refl. cbn [check bind]. f_equal. rewrite (cdot_scale (map (fun p => cmul (fst p) (snd p)) (combine (map (wave f fs) (seq 0 L)) a)) (map (fun p => cmul (fst p) (snd p)) (combine (map (tone (f / fs)%Qc L) (seq 0 L)) a)) y (RtoC (2 / INR L))).
    + unfold scale. rewrite K. unfold Cdiv. symmetry. apply Cmult_assoc.
    + rewrite !map_length, !combine_length, !map_length. reflexivity.
    + rewrite map_length, combine_length, map_length, seq_length, Hy, Ho. apply Nat.min_id.
    + intros n u u'. rewrite !nth_error_map. set (c1 := combine _ a). set (c2 := combine _ a). intros H1 H2.
      destruct (nth_error c1 n) as [[p q]|] eqn:E1; [|discriminate]. destruct (nth_error c2 n) as [[p' q']|] eqn:E2; [|discriminate].
      injection H1 as <-. injection H2 as <-. unfold c1, c2 in *. clear c1 c2.
      assert (N : n < L). { assert (n < length (combine (map (wave f fs) (seq 0 L)) a)) by (apply nth_error_Some; congruence). rewrite combine_length, map_length, seq_length in H. lia. }
      assert (X : forall (x : list C) (p q : C), nth_error (combine x a) n = Some (p, q) -> nth_error x n = Some p /\ nth_error a n = Some q).
      { clear. revert a. induction n as [|n IH]; intros a [|x0 x] p q; destruct a as [|b a]; simpl; try discriminate.
        - intros [= -> ->]. auto.
        - apply IH. }
      apply X in E1 as [E1 F1]. apply X in E2 as [E2 F2]. rewrite nth_error_map, nth_error_seq, (proj2 (Nat.ltb_lt _ _) N) in E1, E2.
      injection E1 as <-. injection E2 as <-. rewrite F1 in F2. injection F2 as <-. simpl. rewrite T. unfold cmul. ring.
  - cbn [bind]. f_equal. rewrite Hy. rewrite (cdot_scale (map (wave f fs) (seq 0 L)) (map (tone (f / fs)%Qc L) (seq 0 L)) y (RtoC (2 / INR L))).
    + unfold scale. rewrite K. unfold Cdiv. symmetry. apply Cmult_assoc.
    + rewrite !map_length. reflexivity.
    + rewrite map_length, seq_length, Hy. reflexivity.
    + intros n u u'. rewrite !nth_error_map, nth_error_seq. destruct (n <? L); [|discriminate]. intros [= <-] [= <-]. apply T.
Qed.

Theorem old_prefix data fs f Nper ov w :
  ttf_old data fs f Nper ov w =
  match time_to_freq tone cmul cdot data fs f Nper ov w with
  | Ok (r, (n, L, s)) => Ok (map (@removelast C) r, (pred n, L, s))
  | Err e => Err e
  end.
Proof.
  unfold time_to_freq_old. destruct (time_to_freq tone cmul cdot data fs f Nper ov w) as [[r [[n L] s]]|e] eqn:E.
  - apply time_to_freq_spec in E. pose proof (spectrum_count _ _ _ _ _ _ _ _ _ _ _ _ _ E) as (Hs & size' & Hl' & HN' & Hk).
    destruct E as (size & nw & Hd & Hl & Hfs & Hdw & HN & o & x & Ho & Hx & Hall).
    assert (E1 : dedup Nat.eqb (map (@length C) data) = [size]).
    { apply (dedup_all_eq Nat.eqb nat_eqb_iff). split; [destruct data; [congruence|discriminate]|]. intros m Hm. apply in_map_iff in Hm as (y & <- & Hy). apply Hl, Hy. }
    rewrite E1. cbn [bind]. rewrite Hfs. cbn [bind check negb]. cbv zeta. rewrite Hdw. cbn [bind]. rewrite !Nat2Z.id.
    rewrite (proj2 (eval_window_asked cdot w L o) Ho). cbn [bind].
    assert (Hfs' : fs <> Q2Qc 0). { intros ->. discriminate Hfs. }
    assert (HL : L <> 0). { apply discrete_window_spec in Hdw. apply params_length_pos in Hdw as [? _]. lia. }
    destruct (discrete_window_pos _ _ _ _ _ _ _ Hdw) as (_ & _ & Hge).
    assert (size' = size) by (destruct data as [|y d]; [congruence|]; rewrite <- (Hl y (or_introl eq_refl)); symmetry; apply Hl'; left; reflexivity). subst size'.
    assert (Enw : nw = Z.of_nat (pred n)) by lia. subst nw. rewrite Nat2Z.id.
    assert (M : mapM (fun y => rows <- sliding_window y (Z.of_nat (pred n)) (Z.of_nat L) (Z.of_nat s) ;; mapM (fun r => ftc r f fs o) rows) data = Ok (map (@removelast C) r)).
    { apply mapM_Forall2. clear E1 Hd Hl'. induction Hall as [|y l data r Hc Hall IH]; constructor.
      - assert (Ey : length y = size) by (apply Hl; left; reflexivity).
        assert (El : length l = n) by (apply HN'; left; reflexivity).
        destruct (window_rows y (pred n) L s) as (rows & -> & Elen & Hr).
        { rewrite Ey. assert (K : pred n - 1 < n) by lia. apply Hk in K. exact K. }
        cbn [bind]. apply mapM_Forall2. rewrite removelast_firstn_len, El.
        assert (P : forall i rr, nth_error rows i = Some rr -> exists c, nth_error (firstn (pred n) l) i = Some c /\ ftc rr f fs o = Ok c).
        { intros i rr Hi. assert (Hin : i < pred n) by (rewrite <- Elen; apply nth_error_Some; congruence).
          exists (cdot x rr). rewrite nth_error_first by exact Hin. split; [apply Hc; exists rr; split; [apply Hr, Hi|reflexivity]|].
          rewrite (ft_kernel f fs L o rr Hfs' HL); [|apply (Hr _ _ Hi)|exact (asked_length _ _ _ Ho)].
          f_equal. f_equal. eapply taper_unique; [apply kernel_taper; exact (asked_length _ _ _ Ho)|exact Hx]. }
        assert (EL : length rows = length (firstn (pred n) l)) by (rewrite firstn_length; lia).
        clear -P EL. revert P EL. generalize (firstn (pred n) l). clear l. induction rows as [|rr rows IH]; intros [|c l] P EL; try discriminate; constructor.
        + destruct (P 0 rr eq_refl) as (c' & [= <-] & H). exact H.
        + apply IH; [|simpl in EL; lia]. intros i r0 Hi. exact (P (S i) r0 Hi).
      - apply IH; [intros z Hz; apply Hl; right; exact Hz|intros z Hz; apply HN'; right; exact Hz]. }
    rewrite M. reflexivity.
  - pose proof E as E0. unfold time_to_freq in E.
    destruct (dedup Nat.eqb (map (@length C) data)) as [|size [|]] eqn:Ed; cbn [bind] in E |- *; try (exact E); [].
    destruct (neqb QA fs (nzero QA)) eqn:Efs; cbn [bind check negb] in E |- *; [exact E|]. cbv zeta in E |- *.
    destruct (discrete_window size (ndiv QA f fs) Nper ov) as [[[nw L] s]|] eqn:Edw; cbn [bind] in E |- *; [|exact E].
    destruct (eval_window w (Z.to_nat L)) as [o|] eqn:Eo; cbn [bind] in E |- *; [|exact E]. exfalso.
    assert (T : exists r Nw, time_to_freq tone cmul cdot data fs f Nper ov w = Ok (r, (Nw, Z.to_nat L, Z.to_nat s))).
    { apply time_to_freq_ok. pose proof Ed as Ed'. apply (dedup_all_eq Nat.eqb nat_eqb_iff) in Ed' as (Hne & Hlen). 
      apply discrete_window_spec in Edw. pose proof (params_length_pos _ _ _ _ _ _ _ Edw) as [HL _]. pose proof (wp_pos _ _ _ _ _ _ _ Edw) as Hs.
      split; [intros ->; apply Hne; reflexivity|]. split.
      - intros ->. discriminate Efs.
      - exists size, nw, o. split; [intros y Hy; apply Hlen, in_map, Hy|]. rewrite !Z2Nat.id by lia. split; [exact Edw|]. apply (eval_window_asked cdot), Eo. }
    destruct T as (r & Nw & T). congruence.
Qed.

(** a tone with a whole number of periods *)
Theorem ft_tone amp phi (f fs : Qc) y (m : Z) : y <> [] -> fs <> Q2Qc 0 -> (Q2Qc 0 < f / fs /\ f / fs < Q2Qc (1 # 2))%Qc ->
  (ZtoQc (Z.of_nat (length y)) * (f / fs))%Qc = ZtoQc m -> samples_tone amp phi (f / fs)%Qc y ->
  ftc y f fs None = Ok (RtoC amp * cis phi)%C.
Proof.
  intros Hy Hfs Hf Hm Hs. assert (HL : length y <> 0) by (destruct y; [congruence|discriminate]).
  rewrite (ft_kernel f fs (length y) None y Hfs HL eq_refl I). f_equal.
  rewrite (tone_coeff amp phi (f / fs)%Qc (length y) m 0 _ y y HL Hf Hm Hs).
  - f_equal. f_equal. simpl. ring.
  - apply kernel_taper. exact I.
  - split; [lia|]. split; [reflexivity|]. reflexivity.
Qed.
