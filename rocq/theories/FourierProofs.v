(** Proofs about the Fourier coefficients. *)
From Coq Require Import QArith Qcanon Lqa.
From Verif Require Import Base BaseLemmas SliceLemmas Arith OrdLaws QcLemmas TagsModel SyncModel SetModel SpecSet FourierModel SpecFourier.
Open Scope nat_scope.

Lemma nth_error_skip {V} (y : list V) : forall a n, nth_error (skipn a y) n = nth_error y (a + n).
Proof. induction y as [|v y IH]; intros [|a] n; simpl; auto. destruct n; reflexivity. Qed.
Lemma nth_error_first {V} (y : list V) : forall L n, n < L -> nth_error (firstn L y) n = nth_error y n.
Proof. induction y as [|v y IH]; intros [|L] [|n] H; simpl; try reflexivity; try lia. apply IH. lia. Qed.

Lemma stretch_at {V} (y : list V) a L : a + L <= length y -> stretch y a L (firstn L (skipn a y)).
Proof.
  intros H. split; [exact H|]. split; [rewrite firstn_length, skipn_length; lia|].
  intros n Hn. rewrite nth_error_first by exact Hn. apply nth_error_skip.
Qed.
Lemma stretch_unique {V} (y : list V) a L w : stretch y a L w -> w = firstn L (skipn a y).
Proof.
  intros (H & Hl & Hn). destruct (stretch_at y a L H) as (_ & Hl' & Hn').
  apply nth_error_ext. intros n. destruct (Nat.lt_ge_cases n L) as [Hi|Hi].
  - rewrite Hn, Hn' by exact Hi. reflexivity.
  - rewrite (proj2 (nth_error_None _ _)), (proj2 (nth_error_None _ _)) by lia. reflexivity.
Qed.

(** ** Strided slices *)
Lemma py_slice_stride {T} (l : list T) (c : Z) : (0 < c)%Z -> exists r, py_slice l (mkSlice None None (Some c)) = Ok r /\
  forall k x, nth_error r k = Some x <-> nth_error l (k * Z.to_nat c) = Some x.
Proof.
  intros Hc. unfold py_slice, slice_range, slice_indices. cbn [sl_step sl_start sl_stop].
  destruct (Z.eqb_spec c 0); [lia|]. destruct (Z.ltb_spec c 0); [lia|]. cbn [bind].
  unfold zrange, range_len. destruct (Z.ltb_spec 0 c); [|lia].
  set (N := Z.to_nat _).
  assert (HN : forall k, k < N <-> k * Z.to_nat c < length l).
  { intros k. unfold N. set (q := ((Z.of_nat (length l) - 0 + c - 1) / c)%Z).
    assert (c * q <= Z.of_nat (length l) - 0 + c - 1 < c * q + c)%Z.
    { unfold q. pose proof (Z.div_mod (Z.of_nat (length l) - 0 + c - 1) c ltac:(lia)). pose proof (Z.mod_pos_bound (Z.of_nat (length l) - 0 + c - 1) c Hc). lia. }
    assert (0 <= q)%Z by (unfold q; apply Z.div_pos; lia).
    assert (E : Z.of_nat (k * Z.to_nat c) = (Z.of_nat k * c)%Z) by lia. split; intros; [|assert (Z.of_nat k < q)%Z; [|lia]]; nia. }
  assert (Ha : forall z, In z (map (fun k => (0 + Z.of_nat k * c)%Z) (seq 0 N)) -> exists y, znth_res l z = Ok y).
  { intros z Hz. apply in_map_iff in Hz as (k & <- & Hk). apply in_seq in Hk. assert (Hk' : k * Z.to_nat c < length l) by (apply HN; lia).
    unfold znth_res. destruct (Z.ltb_spec (0 + Z.of_nat k * c) 0); [lia|]. unfold nth_res.
    replace (Z.to_nat (0 + Z.of_nat k * c)) with (k * Z.to_nat c) by lia.
    destruct (nth_error l (k * Z.to_nat c)) eqn:E; [eexists; reflexivity|]. apply nth_error_None in E. lia. }
  apply mapM_ok_exists in Ha as (r & Hr). exists r. split; [exact Hr|].
  assert (Hz : forall k, znth_res l (0 + Z.of_nat k * c) = of_option IndexError (nth_error l (k * Z.to_nat c))).
  { intros k. unfold znth_res, nth_res. destruct (Z.ltb_spec (0 + Z.of_nat k * c) 0); [lia|]. do 2 f_equal. lia. }
  intros k x. split; intros Hx.
  - destruct (mapM_nth_r _ _ _ _ _ Hr Hx) as (z & Hz1 & Hz2).
    rewrite nth_error_map, nth_error_seq in Hz1. destruct (Nat.ltb_spec k N); [|discriminate]. injection Hz1 as Hz1.
    replace z with (0 + Z.of_nat k * c)%Z in Hz2 by (rewrite <- Hz1; reflexivity). rewrite Hz in Hz2. apply of_option_ok in Hz2. exact Hz2.
  - assert (Hk : k < N) by (apply HN, nth_error_Some; congruence).
    destruct (mapM_nth _ _ _ k (0 + Z.of_nat k * c)%Z Hr) as (y & Hy1 & Hy2).
    { rewrite nth_error_map, nth_error_seq. destruct (Nat.ltb_spec k N); [reflexivity|lia]. }
    rewrite Hz, Hx in Hy2. injection Hy2 as ->. exact Hy1.
Qed.

Section P.
Context {A : Arith} {V K C : Type}.
Variables (tone : num A -> nat -> nat -> C) (cmul : C -> C -> C) (cdot : list C -> list V -> C).
Notation ttf := (time_to_freq tone cmul cdot).

Lemma channel_coeffs_inv x Lw shift (y : list V) l : channel_coeffs cdot x Lw shift y = Ok l -> (0 <= Lw <= Z.of_nat (length y))%Z.
Proof.
  intros H. apply bind_ok in H as (view & Hv & _). unfold sliding_window_view in Hv.
  destruct (Z.ltb_spec Lw 0); [discriminate|]. destruct (Z.ltb_spec (Z.of_nat (length y)) Lw); [discriminate|]. lia.
Qed.

Lemma channel_coeffs_ok x Lw shift (y : list V) : (0 <= Lw <= Z.of_nat (length y))%Z -> (0 < shift)%Z ->
  exists l, channel_coeffs cdot x Lw shift y = Ok l /\ coeffs_of cdot x (Z.to_nat Lw) (Z.to_nat shift) y l.
Proof.
  intros Hl Hs. unfold channel_coeffs, sliding_window_view.
  destruct (Z.ltb_spec Lw 0); [lia|]. destruct (Z.ltb_spec (Z.of_nat (length y)) Lw); [lia|]. cbn [bind orb].
  set (L := Z.to_nat Lw). set (view := map _ _).
  destruct (py_slice_stride view shift Hs) as (rows & Hr & Hrows). rewrite Hr. cbn [bind].
  eexists. split; [reflexivity|]. intros k c.
  assert (Hview : forall i w, nth_error view i = Some w <-> stretch y i L w).
  { intros i w. unfold view. rewrite nth_error_map, nth_error_seq. cbn [plus].
    destruct (Nat.ltb_spec i (length y - L + 1)) as [Hi|Hi]; simpl.
    - split; [intros [= <-]; apply stretch_at; lia|]. intros Hw. rewrite (stretch_unique y i L w Hw). reflexivity.
    - split; [discriminate|]. intros (Hw & _). lia. }
  split.
  - intros Hq. apply nth_error_map_some in Hq as (w & Hw & ->). exists w. split; [|reflexivity]. apply Hview, Hrows, Hw.
  - intros (w & Hw & ->). apply map_nth_error, Hrows, Hview, Hw.
Qed.

Lemma coeffs_count x L shift (y : list V) l : 0 < shift -> coeffs_of cdot x L shift y l ->
  forall k, k < length l <-> k * shift + L <= length y.
Proof.
  intros Hs H k. split.
  - intros Hk. destruct (nth_error l k) as [c|] eqn:E; [|apply nth_error_None in E; lia].
    apply H in E as (w & (Hw & _) & _). exact Hw.
  - intros Hk. apply nth_error_Some. rewrite (proj2 (H k (cdot x (firstn L (skipn (k * shift) y))))); [discriminate|].
    exists (firstn L (skipn (k * shift) y)). split; [apply stretch_at, Hk|reflexivity].
Qed.

(** all channels have the same number of coefficients *)
Lemma count_unique (n m L shift N : nat) : 0 < shift -> (forall k, k < n <-> k * shift + L <= N) -> (forall k, k < m <-> k * shift + L <= N) -> n = m.
Proof.
  intros _ Hn Hm. assert (E : forall k, k < n <-> k < m) by (intros k; rewrite Hn, Hm; reflexivity).
  pose proof (E n). pose proof (E m). lia.
Qed.

Lemma kernel_taper nf L w : match w with Some a => length a = L | None => True end -> taper tone cmul nf L w (kernel tone cmul nf L w).
Proof.
  intros Hw. destruct w as [a|]; unfold kernel, taper.
  - split; [rewrite map_length, combine_length, map_length, seq_length; lia|]. intros n Hn.
    destruct (nth_error a n) as [v|] eqn:E; [|apply nth_error_None in E; lia]. exists v. split; [reflexivity|].
    rewrite nth_error_map.
    assert (Ec : nth_error (combine (map (tone nf L) (seq 0 L)) a) n = Some (tone nf L n, v)).
    { assert (Hx : nth_error (map (tone nf L) (seq 0 L)) n = Some (tone nf L n)).
      { rewrite nth_error_map, nth_error_seq. destruct (Nat.ltb_spec n L); [reflexivity|lia]. }
      revert Hx E. generalize (map (tone nf L) (seq 0 L)) as x. generalize (tone nf L n) as t. clear. intros t x. revert n a x.
      induction n as [|n IH]; intros [|u a] [|z x]; simpl; try discriminate; [congruence|]. apply IH. }
    rewrite Ec. reflexivity.
  - split; [rewrite map_length, seq_length; reflexivity|]. intros n Hn. rewrite nth_error_map, nth_error_seq.
    destruct (Nat.ltb_spec n L); [reflexivity|lia].
Qed.

Lemma eval_window_asked (w : window_arg C) L o : eval_window w L = Ok o <-> asked w L o.
Proof.
  unfold eval_window, asked. destruct w as [|a|f]; simpl.
  - split; congruence.
  - destruct (Nat.eqb_spec (length a) L); simpl; split; try congruence; intuition congruence.
  - destruct (f L) as [a|e]; simpl.
    + destruct (Nat.eqb_spec (length a) L); simpl; split; intros H; try discriminate.
      * exists a. split; [reflexivity|]. split; [congruence|assumption].
      * destruct H as (a' & Ha & -> & _). congruence.
      * destruct H as (a' & Ha & -> & Hl). congruence.
    + split; [discriminate|]. intros (a' & Ha & _). discriminate.
Qed.

Lemma asked_length w L o : @asked C w L o -> match o with Some a => length a = L | None => True end.
Proof. destruct w as [|a|f]; simpl; [intros ->; exact I|intros (-> & H); exact H|intros (a & _ & -> & H); exact H]. Qed.

Lemma taper_unique nf L w x x' : taper tone cmul nf L w x -> taper tone cmul nf L w x' -> x = x'.
Proof.
  intros (Hl & H) (Hl' & H'). apply nth_error_ext. intros n. destruct (Nat.lt_ge_cases n L) as [Hn|Hn].
  - specialize (H n Hn). specialize (H' n Hn). destruct w as [a|]; [|congruence].
    destruct H as (v & Hv & H). destruct H' as (v' & Hv' & H'). congruence.
  - rewrite (proj2 (nth_error_None _ _)), (proj2 (nth_error_None _ _)) by lia. reflexivity.
Qed.

Lemma coeffs_unique x L shift (y : list V) l l' : coeffs_of cdot x L shift y l -> coeffs_of cdot x L shift y l' -> l = l'.
Proof.
  intros H H'. apply nth_error_ext. intros n. destruct (nth_error l n) as [c|] eqn:E.
  - symmetry. apply H', H, E.
  - destruct (nth_error l' n) as [c|] eqn:E'; [|reflexivity]. apply H', H in E'. congruence.
Qed.

Lemma discrete_window_pos size nf Nper ov Nw Lw shift : @discrete_window A size nf Nper ov = Ok (Nw, Lw, shift) ->
  (shift <> 0 /\ Nw = (Z.of_nat size - Lw) / shift /\ 1 <= Nw)%Z.
Proof.
  intros H. unfold discrete_window in H. apply bind_ok in H as (_ & _ & H). apply bind_ok in H as (_ & _ & H).
  apply bind_ok in H as (L & _ & H). apply bind_ok in H as (sh & _ & H).
  destruct (Z.eqb_spec sh 0); [destruct (0 <? _)%Z; discriminate|].
  destruct (Z.ltb_spec ((Z.of_nat size - L) / sh) 1); [discriminate|]. injection H as <- <- <-. split; [assumption|]. split; [reflexivity|assumption].
Qed.

Definition spectrum_ok (data : list (list V)) (fs f Nper ov : num A) (w : window_arg C) (r : list (list C)) (Nw Lw shift : nat) : Prop :=
  exists size nw, data <> [] /\ (forall y, In y data -> length y = size) /\ neqb A fs (nzero A) = false /\
  discrete_window size (ndiv A f fs) Nper ov = Ok (nw, Z.of_nat Lw, Z.of_nat shift) /\ Z.of_nat Nw = (nw + 1)%Z /\
  exists o x, asked w Lw o /\ taper tone cmul (ndiv A f fs) Lw o x /\ Forall2 (coeffs_of cdot x Lw shift) data r.

Lemma window_fits size Lw shift (nw : Z) : (0 <= Lw)%Z -> (0 < shift)%Z -> nw = ((size - Lw) / shift)%Z -> (1 <= nw)%Z ->
  (Lw + shift <= size)%Z /\ forall n, (forall k, k < n <-> (Z.of_nat k * shift + Lw <= size)%Z) <-> Z.of_nat n = (nw + 1)%Z.
Proof.
  intros Hl Hs E H1. pose proof (Z.div_mod (size - Lw) shift ltac:(lia)) as Hd. pose proof (Z.mod_pos_bound (size - Lw) shift Hs) as Hm.
  rewrite <- E in Hd. split; [nia|]. intros n.
  assert (Hk : forall k, (k * shift + Lw <= size <-> k < nw + 1)%Z) by (intros k; split; intros; nia). split.
  - intros H. pose proof (H n) as Ha. rewrite Hk in Ha. pose proof (H (Z.to_nat (nw+1))) as Hb. rewrite Hk in Hb. lia.
  - intros H k. rewrite Hk. lia.
Qed.

Lemma time_to_freq_spec data fs f Nper ov w r Nw Lw shift :
  ttf data fs f Nper ov w = Ok (r, (Nw, Lw, shift)) <-> spectrum_ok data fs f Nper ov w r Nw Lw shift.
Proof.
  split.
  - intros H. unfold time_to_freq in H. apply bind_ok in H as (size & Hsz & H).
    destruct (dedup Nat.eqb (map (@length V) data)) as [|n [|]] eqn:Ed; try discriminate. injection Hsz as ->.
    apply (dedup_all_eq Nat.eqb nat_eqb_iff) in Ed as (Hne & Hlen).
    apply bind_ok in H as ([] & Hfs & H). apply check_ok, negb_true_iff in Hfs.
    apply bind_ok in H as ([[nw LW] sh] & Hdw & H). apply bind_ok in H as (o & Ho & H). apply bind_ok in H as (r' & Hr & H).
    apply bind_ok in H as (N & HN & H).
    destruct (dedup Nat.eqb (map (@length C) r')) as [|n [|]] eqn:Ed; try discriminate. injection HN as ->.
    apply (dedup_all_eq Nat.eqb nat_eqb_iff) in Ed as (Hne' & Hlen'). injection H as <- <- <- <-.
    assert (Hd : data <> []) by (intros ->; apply Hne; reflexivity).
    assert (Hl : forall y, In y data -> length y = size) by (intros y Hy; apply Hlen, in_map, Hy).
    destruct data as [|y0 data0] eqn:Edata; [congruence|]. rewrite <- Edata in *. assert (Hy0 : In y0 data) by (rewrite Edata; left; reflexivity).
    destruct (discrete_window_pos _ _ _ _ _ _ _ Hdw) as (Hsh & Hnw & Hge).
    assert (HL : (0 <= LW <= Z.of_nat size)%Z).
    { destruct (mapM_In _ _ _ y0 Hr Hy0) as (c & _ & Hc). apply channel_coeffs_inv in Hc. rewrite (Hl y0 Hy0) in Hc. exact Hc. }
    assert (Hpos : (0 < sh)%Z).
    { destruct (Z_lt_le_dec 0 sh); [assumption|]. pose proof (Z.div_mod (Z.of_nat size - LW) sh Hsh) as Hdm.
      pose proof (Z.mod_neg_bound (Z.of_nat size - LW) sh ltac:(lia)). rewrite <- Hnw in Hdm. nia. }
    assert (Hall : Forall2 (coeffs_of cdot (kernel tone cmul (ndiv A f fs) (Z.to_nat LW) o) (Z.to_nat LW) (Z.to_nat sh)) data r').
    { apply mapM_Forall2 in Hr. clear -Hr Hl HL Hpos. induction Hr as [|y l data r H Hr IH]; constructor.
      - destruct (channel_coeffs_ok (kernel tone cmul (ndiv A f fs) (Z.to_nat LW) o) LW sh y) as (l' & Hl' & Hc); [rewrite (Hl y (or_introl eq_refl)); exact HL|exact Hpos|].
        rewrite Hl' in H. injection H as <-. exact Hc.
      - apply IH. intros z Hz. apply Hl. right. exact Hz. }
    exists size, nw. split; [exact Hd|]. split; [exact Hl|]. split; [exact Hfs|]. rewrite !Z2Nat.id by lia. split; [exact Hdw|]. split.
    + destruct (window_fits (Z.of_nat size) LW sh nw) as (_ & Hf); [lia|exact Hpos|exact Hnw|exact Hge|]. apply Hf. intros k.
      inversion Hall as [|y l dd rr Hc Hcs E1 E2]; [congruence|]. rewrite Edata in E1. injection E1 as -> ->.
      assert (El : length l = N) by (apply Hlen'; rewrite <- E2; left; reflexivity). rewrite <- El.
      assert (Hs0 : 0 < Z.to_nat sh) by lia. rewrite (coeffs_count _ _ _ _ _ Hs0 Hc). rewrite (Hl y0 Hy0). lia.
    + exists o, (kernel tone cmul (ndiv A f fs) (Z.to_nat LW) o). apply eval_window_asked in Ho. split; [exact Ho|].
      split; [apply kernel_taper; exact (asked_length _ _ _ Ho)|exact Hall].
  - intros (size & nw & Hd & Hl & Hfs & Hdw & HN & o & x & Ho & Hx & Hall). unfold time_to_freq.
    assert (E1 : dedup Nat.eqb (map (@length V) data) = [size]).
    { apply (dedup_all_eq Nat.eqb nat_eqb_iff). split; [destruct data; [congruence|discriminate]|]. intros n Hn. apply in_map_iff in Hn as (y & <- & Hy). apply Hl, Hy. }
    rewrite E1. cbn [bind]. rewrite Hfs. cbn [bind check negb]. rewrite Hdw. cbn [bind]. rewrite !Nat2Z.id.
    rewrite (proj2 (eval_window_asked w Lw o) Ho). cbn [bind].
    destruct (discrete_window_pos _ _ _ _ _ _ _ Hdw) as (Hsh & Hnw & Hge).
    destruct (window_fits (Z.of_nat size) (Z.of_nat Lw) (Z.of_nat shift) nw) as (Hfit & Hf); [lia|lia|exact Hnw|exact Hge|].
    assert (Ek : kernel tone cmul (ndiv A f fs) Lw o = x) by (eapply taper_unique; [apply kernel_taper; exact (asked_length _ _ _ Ho)|exact Hx]).
    rewrite Ek. assert (Er : mapM (channel_coeffs cdot x (Z.of_nat Lw) (Z.of_nat shift)) data = Ok r).
    { apply mapM_Forall2. clear -Hall Hl Hfit Hsh. induction Hall as [|y l data r H Hr IH]; constructor.
      - destruct (channel_coeffs_ok x (Z.of_nat Lw) (Z.of_nat shift) y) as (l' & Hl' & Hc); [rewrite (Hl y (or_introl eq_refl)); lia|lia|].
        rewrite !Nat2Z.id in Hc. rewrite Hl'. f_equal. eapply coeffs_unique; eassumption.
      - apply IH. intros z Hz. apply Hl. right. exact Hz. }
    rewrite Er. cbn [bind]. assert (Hs0 : 0 < shift) by lia.
    assert (E2 : dedup Nat.eqb (map (@length C) r) = [Nw]).
    { apply (dedup_all_eq Nat.eqb nat_eqb_iff). split.
      - destruct r; [inversion Hall; congruence|discriminate].
      - intros n Hn. apply in_map_iff in Hn as (l & <- & Hin). 
        destruct (In_nth_error _ _ Hin) as (i & Hi). destruct (Forall2_nth_error_r _ _ _ _ _ Hall Hi) as (y & Hy & Hc).
        apply (count_unique _ _ Lw shift size); [lia|intros k; rewrite (coeffs_count _ _ _ _ _ Hs0 Hc), (Hl y (nth_error_In _ _ Hy)); reflexivity|].
        intros k. rewrite (proj2 (Hf Nw) HN k). lia. }
    rewrite E2. reflexivity.
Qed.

(** the windows of a successful call *)
Lemma spectrum_count data fs f Nper ov w r Nw Lw shift : spectrum_ok data fs f Nper ov w r Nw Lw shift ->
  0 < shift /\ exists size, (forall y, In y data -> length y = size) /\ (forall l, In l r -> length l = Nw) /\ forall k, k < Nw <-> k * shift + Lw <= size.
Proof.
  intros (size & nw & Hd & Hl & Hfs & Hdw & HN & o & x & Ho & Hx & Hall).
  destruct (discrete_window_pos _ _ _ _ _ _ _ Hdw) as (Hsh & Hnw & Hge). assert (Hs0 : 0 < shift) by lia. split; [exact Hs0|]. exists size. split; [exact Hl|].
  destruct (window_fits (Z.of_nat size) (Z.of_nat Lw) (Z.of_nat shift) nw) as (Hfit & Hf); [lia|lia|exact Hnw|exact Hge|].
  assert (Hk : forall k, k < Nw <-> k * shift + Lw <= size) by (intros k; rewrite (proj2 (Hf Nw) HN k); lia). split; [|exact Hk].
  intros l Hin. destruct (In_nth_error _ _ Hin) as (i & Hi). destruct (Forall2_nth_error_r _ _ _ _ _ Hall Hi) as (y & Hy & Hc).
  apply (count_unique _ _ Lw shift size); [lia|intros k; rewrite (coeffs_count _ _ _ _ _ Hs0 Hc), (Hl y (nth_error_In _ _ Hy)); reflexivity|exact Hk].
Qed.
End P.
