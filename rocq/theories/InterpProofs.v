(** Proofs about linear interpolation and the calibration functions. *)
From Coq Require Import QArith Qcanon Lqa Sorted Permutation.
From Verif Require Import Base BaseLemmas Arith OrdLaws QcLemmas PathModel DataModel CalModel SpecCal CalProofs.
Open Scope nat_scope.

Definition pt : Type := (Qc * cq)%type.
Definition ltp (p q : pt) : bool := Qcltb (fst p) (fst q).
Definition srt (l : list pt) : list pt := stable_sort ltp l.

Lemma srt_strict l : NoDup (map fst l) -> StronglySorted (fun p q => (fst p < fst q)%Qc) (srt l).
Proof.
  intros Hn.
  assert (Hs : StronglySorted (fun p q => ltp q p = false) (srt l)).
  { apply (sort_sorted ltp (fun _ => True)).
    - intros x y _ _. unfold ltp. rewrite Qcltb_lt, Qcltb_ge. apply Qclt_le_weak.
    - intros x y z _ _ _. unfold ltp. rewrite !Qcltb_ge. intros; eapply Qcle_trans; eassumption.
    - apply Forall_forall. auto. }
  assert (Hn' : NoDup (map fst (srt l))).
  { eapply Permutation_NoDup; [|exact Hn]. apply Permutation_map, sort_perm. }
  revert Hn'. induction Hs as [|p r Hr IH Hp]; intros Hn'; constructor.
  - apply IH. inversion Hn'; assumption.
  - rewrite Forall_forall in *. intros q Hq. specialize (Hp q Hq). unfold ltp in Hp. apply Qcltb_ge in Hp.
    apply Qcle_lt_or_eq in Hp as [Hp|Hp]; [exact Hp|]. exfalso. inversion Hn' as [|? ? H1 H2]; subst. apply H1. rewrite Hp.
    apply in_map. exact Hq.
Qed.

Lemma sorted_nth (l : list pt) d : StronglySorted (fun p q => (fst p < fst q)%Qc) l ->
  forall i j, i < j -> j < length l -> (fst (nth i l d) < fst (nth j l d))%Qc.
Proof.
  induction 1 as [|p l Hl IH Hp]; intros i j Hij Hj; simpl in Hj; [lia|].
  destruct j as [|j]; [lia|]. destruct i as [|i]; simpl.
  - rewrite Forall_forall in Hp. apply Hp, nth_In. lia.
  - apply IH; lia.
Qed.
Lemma sorted_nth_le (l : list pt) d : StronglySorted (fun p q => (fst p < fst q)%Qc) l ->
  forall i j, i <= j -> j < length l -> (fst (nth i l d) <= fst (nth j l d))%Qc.
Proof.
  intros H i j Hij Hj. destruct (Nat.eq_dec i j) as [->|]; [apply Qcle_refl|]. apply Qclt_le_weak, sorted_nth; [exact H|lia|exact Hj].
Qed.

Lemma searchsorted_spec (l : list Qc) f : let k := searchsorted (A := QA) l f in
  k <= length l /\ (forall i d, i < k -> (nth i l d < f)%Qc) /\ (forall d, k < length l -> (f <= nth k l d)%Qc).
Proof.
  induction l as [|x l (IH1 & IH2 & IH3)].
  - simpl. split; [lia|]. split; [intros; lia|]. intros; lia.
  - cbn [searchsorted]. change (nltb QA x f) with (Qcltb x f). destruct (Qcltb x f) eqn:E.
    + simpl. split; [lia|]. split.
      * intros [|i] d Hi; [apply Qcltb_lt; exact E|]. apply IH2. lia.
      * intros d Hi. apply IH3. lia.
    + apply Qcltb_ge in E. simpl. split; [lia|]. split; [intros; lia|]. intros; exact E.
Qed.

(** inside the range, the value is on a segment of the sorted table *)
Lemma interp_seg pts f : tabulation pts ->
  (exists p, In p pts /\ (fst p <= f)%Qc) -> (exists p, In p pts /\ (f <= fst p)%Qc) ->
  exists i d, S i < length (srt pts) /\ (fst (nth i (srt pts) d) <= f <= fst (nth (S i) (srt pts) d))%Qc /\
    interp1d (A := QA) pts f = Ok (line (A := QA) (nth i (srt pts) d) (nth (S i) (srt pts) d) f).
Proof.
  intros (Hn & Hl) (p & Hp & Hpf) (q & Hq & Hqf).
  pose proof (srt_strict _ Hn) as Hs. assert (Hlen : length (srt pts) = length pts) by apply sort_length.
  apply (sort_In ltp) in Hp, Hq. change (In p (srt pts)) in Hp. change (In q (srt pts)) in Hq.
  unfold interp1d. change (stable_sort (fun p q => nltb QA (fst p) (fst q)) pts) with (srt pts). cbv zeta.
  destruct (srt pts) as [|p0 l] eqn:Es; [destruct Hp|]. rewrite <- Hlen in Hl.
  set (s := p0 :: l) in *. set (n := length s) in *.
  assert (Hmin : (fst p0 <= f)%Qc).
  { destruct (In_nth _ _ p0 Hp) as (i & Hi & E). eapply Qcle_trans; [|exact Hpf]. rewrite <- E. apply (sorted_nth_le s p0 Hs 0 i); [lia|exact Hi]. }
  assert (Hmax : (f <= fst (nth (n - 1) s p0))%Qc).
  { destruct (In_nth _ _ p0 Hq) as (i & Hi & E). eapply Qcle_trans; [exact Hqf|]. rewrite <- E.
    apply (sorted_nth_le s p0 Hs i (n - 1)); fold n in Hi |- *; lia. }
  change (nltb QA f (fst p0)) with (Qcltb f (fst p0)). rewrite (proj2 (Qcltb_ge f (fst p0)) Hmin). cbn [negb check bind].
  match goal with |- context [check (negb (nltb QA ?x f))] =>
    assert (E2 : nltb QA x f = false) by (apply Qcltb_ge; exact Hmax); rewrite E2 end. cbn [negb check bind].
  destruct (searchsorted_spec (map fst s) f) as (K1 & K2 & K3). change (@fst (num QA) (num QA * num QA)) with (@fst Qc cq).
  set (k := searchsorted (A := QA) (map fst s) f) in *. rewrite map_length in K1, K3. fold n in K1, K3.
  set (hi := Nat.max 1 (Nat.min k (n - 1))).
  assert (Hhi : 1 <= hi < n) by (unfold hi; lia).
  exists (hi - 1), p0. replace (S (hi - 1)) with hi by lia. split; [lia|]. split; [|reflexivity].
  assert (Knth : forall i, nth i (map fst s) (fst p0) = fst (nth i s p0)) by (intros; apply map_nth).
  split.
  - destruct (Nat.eq_dec hi 1) as [->|]; [exact Hmin|]. apply Qclt_le_weak. rewrite <- Knth. apply K2. unfold hi in *; lia.
  - destruct (Nat.lt_ge_cases k n).
    + destruct (Nat.eq_dec k 0) as [E0|E0].
      * eapply Qcle_trans; [exact (K3 (fst p0) H)|]. rewrite E0, Knth. apply (sorted_nth_le s p0 Hs 0 hi); [lia|]. fold n; lia.
      * replace hi with k by (unfold hi; lia). rewrite <- Knth. apply K3. exact H.
    + replace hi with (n - 1) by (unfold hi; lia). exact Hmax.
Qed.

Lemma interp_out pts f : pts <> [] -> ((forall p, In p pts -> (f < fst p)%Qc) \/ (forall p, In p pts -> (fst p < f)%Qc)) ->
  interp1d (A := QA) pts f = Err ValueError.
Proof.
  intros Hne H. unfold interp1d. change (stable_sort (fun p q => nltb QA (fst p) (fst q)) pts) with (srt pts). cbv zeta.
  assert (Hin : forall p, In p (srt pts) -> In p pts) by (intros p; apply sort_In).
  assert (Hlen : length (srt pts) = length pts) by apply sort_length.
  destruct (srt pts) as [|p0 l] eqn:Es; [destruct pts; [congruence|discriminate]|].
  change (nltb QA f (fst p0)) with (Qcltb f (fst p0)). destruct H as [H|H].
  - rewrite (proj2 (Qcltb_lt f (fst p0))) by (apply H, Hin; left; reflexivity). reflexivity.
  - rewrite (proj2 (Qcltb_ge f (fst p0))) by (apply Qclt_le_weak, H, Hin; left; reflexivity). cbn [negb check bind].
    match goal with |- context [check (negb (nltb QA ?x f))] => assert (E2 : nltb QA x f = true) end.
    { apply Qcltb_lt. apply H, Hin, nth_In. simpl; lia. }
    rewrite E2. reflexivity.
Qed.

Lemma qc_field (a b x y f : Qc) : x <> y -> ((b - a) / (y - x) * (f - x) + a = (1 - (f - x) / (y - x)) * a + (f - x) / (y - x) * b)%Qc.
Proof. intros H. field. intros E. apply H. symmetry. replace y with ((y - x) + x)%Qc by ring. rewrite E. ring. Qed.

Lemma line_between (p q : pt) f : (fst p < fst q)%Qc ->
  forall t v, between t p q f v -> line (A := QA) p q f = v.
Proof.
  intros Hlt t v (-> & H1 & H2). assert (Hne : (fst q - fst p)%Qc <> 0%Qc).
  { intros E. apply (Qclt_not_eq _ _ Hlt). replace (fst q) with ((fst q - fst p) + fst p)%Qc by ring. rewrite E. ring. }
  destruct v as [v1 v2]. cbn [fst snd] in H1, H2. subst v1 v2. unfold line. cbn [nadd nmul ndiv nsub QA num].
  destruct p as (x & a1 & a2), q as (y & b1 & b2). cbn [fst snd] in *. cbn. f_equal.
  - change ((b1 - a1) / (y - x) * ((1 - t) * x + t * y - x) + a1 = (1 - t) * a1 + t * b1)%Qc. field. exact Hne.
  - change ((b2 - a2) / (y - x) * ((1 - t) * x + t * y - x) + a2 = (1 - t) * a2 + t * b2)%Qc. field. exact Hne.
Qed.

Lemma between_0 p q : between 0 p q (fst p) (snd p).
Proof. unfold between. repeat split; ring. Qed.
Lemma between_1 p q : between 1 p q (fst q) (snd q).
Proof. unfold between. repeat split; ring. Qed.

Lemma same_point pts (p q : pt) : NoDup (map fst pts) -> In p pts -> In q pts -> fst p = fst q -> p = q.
Proof.
  induction pts as [|a pts IH]; intros Hn Hp Hq E; [destruct Hp|]. inversion Hn as [|? ? H1 H2]; subst. destruct Hp as [->|Hp], Hq as [->|Hq]; auto.
  - exfalso. apply H1. rewrite E. apply in_map. exact Hq.
  - exfalso. apply H1. rewrite <- E. apply in_map. exact Hp.
Qed.

Lemma interp_at pts p : tabulation pts -> In p pts -> interp1d (A := QA) pts (fst p) = Ok (snd p).
Proof.
  intros Ht Hp. destruct (interp_seg pts (fst p) Ht) as (i & d & Hi & (H1 & H2) & ->); try (exists p; split; [exact Hp|apply Qcle_refl]).
  destruct Ht as (Hn & _). pose proof (srt_strict _ Hn) as Hs. set (s := srt pts) in *.
  assert (Hps : In p s) by (apply sort_In; exact Hp). assert (Hns : NoDup (map fst s)) by (eapply Permutation_NoDup; [|exact Hn]; apply Permutation_map, sort_perm).
  assert (Hlt : (fst (nth i s d) < fst (nth (S i) s d))%Qc) by (apply sorted_nth; [exact Hs|lia|exact Hi]).
  destruct (In_nth _ _ d Hps) as (k & Hk & Ek). f_equal.
  destruct (Nat.le_gt_cases k i).
  - assert (E : fst p = fst (nth i s d)).
    { apply Qcle_antisym; [|exact H1]. rewrite <- Ek. apply sorted_nth_le; [exact Hs|lia|lia]. }
    assert (p = nth i s d) as Ep by (apply (same_point s); [exact Hns|exact Hps|apply nth_In; lia|exact E]).
    rewrite Ep. apply (line_between _ _ _ Hlt 0%Qc). apply between_0.
  - assert (E : fst p = fst (nth (S i) s d)).
    { apply Qcle_antisym; [exact H2|]. rewrite <- Ek. apply sorted_nth_le; [exact Hs|lia|lia]. }
    assert (p = nth (S i) s d) as Ep by (apply (same_point s); [exact Hns|exact Hps|apply nth_In; lia|exact E]).
    rewrite Ep. apply (line_between _ _ _ Hlt 1%Qc). apply between_1.
Qed.

Lemma interp_mid pts p q f v t : tabulation pts -> neighbours pts p q -> (0 <= t <= 1)%Qc -> between t p q f v ->
  interp1d (A := QA) pts f = Ok v.
Proof.
  intros Ht (Hp & Hq & Hpq & Hnb) (Ht0 & Ht1) Hb.
  destruct (Qc_eq_dec t 0) as [->|N0].
  { destruct Hb as (-> & H1 & H2). replace ((1 - 0) * fst p + 0 * fst q)%Qc with (fst p) by ring. rewrite (interp_at pts p Ht Hp). f_equal.
    destruct v as [v1 v2]. cbn [fst snd] in *. destruct p as [x [a b]]. cbn [fst snd] in *. f_equal; [rewrite H1|rewrite H2]; ring. }
  destruct (Qc_eq_dec t 1) as [->|N1].
  { destruct Hb as (-> & H1 & H2). replace ((1 - 1) * fst p + 1 * fst q)%Qc with (fst q) by ring. rewrite (interp_at pts q Ht Hq). f_equal.
    destruct v as [v1 v2]. cbn [fst snd] in *. destruct q as [x [a b]]. cbn [fst snd] in *. f_equal; [rewrite H1|rewrite H2]; ring. }
  assert (T0 : (0 < t)%Qc) by (apply Qcle_lt_or_eq in Ht0 as [?|?]; [assumption|congruence]).
  assert (T1 : (t < 1)%Qc) by (apply Qcle_lt_or_eq in Ht1 as [?|?]; [assumption|congruence]).
  assert (Ef : f = ((1 - t) * fst p + t * fst q)%Qc) by (destruct Hb; assumption).
  assert (D : (0 < fst q - fst p)%Qc) by (apply Qclt_minus_iff in Hpq; exact Hpq).
  assert (F1 : (fst p < f)%Qc).
  { apply Qclt_minus_iff. replace (f + - fst p)%Qc with (t * (fst q - fst p))%Qc by (rewrite Ef; ring).
    replace 0%Qc with (0 * (fst q - fst p))%Qc by ring. apply Qcmult_lt_compat_r; assumption. }
  assert (F2 : (f < fst q)%Qc).
  { apply Qclt_minus_iff. replace (fst q + - f)%Qc with ((1 - t) * (fst q - fst p))%Qc by (rewrite Ef; ring).
    replace 0%Qc with (0 * (fst q - fst p))%Qc by ring. apply Qcmult_lt_compat_r; [exact D|]. apply Qclt_minus_iff in T1. exact T1. }
  destruct (interp_seg pts f Ht) as (i & d & Hi & (H1 & H2) & ->);
    [exists p; split; [exact Hp|apply Qclt_le_weak; exact F1]|exists q; split; [exact Hq|apply Qclt_le_weak; exact F2]|].
  destruct Ht as (Hn & _). pose proof (srt_strict _ Hn) as Hs. set (s := srt pts) in *.
  assert (Hin : forall x, In x s <-> In x pts) by (intros; apply sort_In).
  assert (I1 : In (nth i s d) pts) by (apply Hin, nth_In; lia). assert (I2 : In (nth (S i) s d) pts) by (apply Hin, nth_In; lia).
  assert (Ep : nth i s d = p).
  { apply (same_point pts); try assumption. apply Qcle_antisym.
    - destruct (Hnb _ I1) as [G|G]; [exact G|]. exfalso. apply (Qclt_not_le _ _ F2). eapply Qcle_trans; eassumption.
    - destruct (In_nth _ _ d (proj2 (Hin p) Hp)) as (k & Hk & Ek). rewrite <- Ek. apply sorted_nth_le; [exact Hs| |lia].
      destruct (Nat.le_gt_cases k i); [assumption|]. exfalso. apply (Qclt_not_le _ _ F1). eapply Qcle_trans; [exact H2|]. rewrite <- Ek.
      apply sorted_nth_le; [exact Hs|lia|exact Hk]. }
  assert (Eq : nth (S i) s d = q).
  { apply (same_point pts); try assumption. apply Qcle_antisym.
    - destruct (In_nth _ _ d (proj2 (Hin q) Hq)) as (k & Hk & Ek). rewrite <- Ek. apply sorted_nth_le; [exact Hs| |lia].
      destruct (Nat.le_gt_cases k i); [|lia]. exfalso. apply (Qclt_not_le _ _ F2). rewrite <- Ek. eapply Qcle_trans; [|exact H1].
      apply sorted_nth_le; [exact Hs|lia|lia].
    - destruct (Hnb _ I2) as [G|G]; [|exact G]. exfalso. apply (Qclt_not_le _ _ F1). eapply Qcle_trans; eassumption. }
  rewrite Ep, Eq. f_equal. apply (line_between _ _ _ Hpq t). exact Hb.
Qed.

Lemma interp_tabulates pts : tabulation pts -> tabulates pts (interp1d (A := QA) pts).
Proof.
  intros H. split; [|split].
  - intros p Hp. apply interp_at; assumption.
  - intros p q t f v Hn Ht Hb. eapply interp_mid; eassumption.
  - intros f Hf. apply interp_out; [|exact Hf]. intros ->. destruct H as (_ & H). simpl in H. lia.
Qed.

Lemma points_rows cal_mp table : cal_points (A := QA) cal_mp table = map (row_point cal_mp) table.
Proof. apply map_ext. intros [[f m] p]. reflexivity. Qed.

(** ** names *)
Lemma cut_dot_spec l : match cut_dot l with
  | (a, Some b) => l = a ++ c_dot :: b /\ ~ In c_dot b
  | (a, None) => a = l /\ ~ In c_dot l end.
Proof.
  induction l as [|c l IH]; simpl; [auto|]. destruct (cut_dot l) as [a [b|]].
  - destruct IH as (-> & H). auto.
  - destruct IH as (-> & H). unfold is. destruct (Ascii.eqb_spec c c_dot) as [->|Hne]; simpl; [auto|].
    split; [reflexivity|]. intros [E|E]; [congruence|auto].
Qed.

Lemma last_dot (a a' b b' : text) : a ++ c_dot :: b = a' ++ c_dot :: b' -> ~ In c_dot b -> ~ In c_dot b' -> a = a' /\ b = b'.
Proof.
  revert a'. induction a as [|x a IH]; intros [|y a'] E Hb Hb'; simpl in E.
  - injection E as ->. auto.
  - injection E as <- ->. exfalso. apply Hb. apply in_or_app. right. left. reflexivity.
  - injection E as -> <-. exfalso. apply Hb'. apply in_or_app. right. left. reflexivity.
  - injection E as -> E. destruct (IH _ E Hb Hb') as (-> & ->). auto.
Qed.

Lemma stem_spec name st : stem name = st <-> stem_of name st.
Proof.
  unfold stem, stem_of. pose proof (cut_dot_spec name) as H. destruct (cut_dot name) as [a [b|]].
  - destruct H as (-> & Hb). destruct a as [|c a]; [|destruct b as [|d b]].
    + split.
      * intros <-. right. split; [reflexivity|]. intros a ext E. destruct (in_dec ascii_dec c_dot ext); [auto|]. left.
        apply last_dot in E as (<- & _); auto.
      * intros [(ext & H1 & H2 & H3 & E)|(-> & _)]; [|reflexivity]. apply last_dot in E as (<- & _); congruence.
    + split.
      * intros <-. right. split; [reflexivity|]. intros a' ext E. destruct (in_dec ascii_dec c_dot ext); [auto|]. right. left.
        apply last_dot in E as (_ & <-); auto.
      * intros [(ext & H1 & H2 & H3 & E)|(-> & _)]; [|reflexivity]. apply last_dot in E as (_ & <-); auto. congruence.
    + split.
      * intros <-. left. exists (d :: b). repeat split; [discriminate|discriminate|exact Hb].
      * intros [(ext & H1 & H2 & H3 & E)|(-> & G)]; [apply last_dot in E as (<- & _); auto|].
        destruct (G _ _ eq_refl) as [?|[?|?]]; [discriminate|discriminate|contradiction].
  - destruct H as (-> & Hn). split.
    + intros <-. right. split; [destruct name; reflexivity|]. intros a ext ->. exfalso. apply Hn. apply in_or_app. right. left. reflexivity.
    + intros [(ext & H1 & H2 & H3 & ->)|(-> & _)]; [|destruct name; reflexivity].
      exfalso. apply Hn. apply in_or_app. right. left. reflexivity.
Qed.

(** ** metronix *)
Section Metronix.
Variables (cal_mp : Qc -> Qc -> Qc -> cq) (angle : Qc -> Qc -> Qc)
  (loadtxt : list text -> res (list (Qc * Qc * Qc))) (version_of : text -> option text)
  (read : path -> res (list text)) (pkg cwd : path) (fs : fsys).

Definition cal_func (chopper : bool) (table : list (Qc * Qc * Qc)) (alpha f : Qc) : res cq :=
  match table with
  | (f0, m0, _) :: _ => if Qcltb f f0 && chopper then Ok (cal_mp f m0 (angle f alpha)) else interp1d (A := QA) (cal_points (A := QA) cal_mp table) f
  | [] => Err IndexError
  end.

Notation run := (metronix (A := QA) cal_mp angle loadtxt version_of read pkg cwd fs).

Lemma metronix_inv filename rate limit alphas cal : run filename rate limit alphas = Ok cal ->
  exists p lines body table st v alpha f0 m0,
    get_data_file pkg cwd fs filename (txt "metronix_calibration") = Ok p /\ read p = Ok lines /\
    section_of (Qcleb rate limit) lines body /\ loadtxt body = Ok table /\ 2 <= length table /\
    stem_of (List.last (p_parts p) []) st /\ version_of st = Some v /\
    find (fun e => teqb (fst e) v) alphas = Some (v, alpha) /\
    option_map fst (hd_error table) = Some (f0, m0) /\
    (forall f, (f < f0)%Qc -> (rate <= limit)%Qc -> cal f = Ok (cal_mp f m0 (angle f alpha))) /\
    (forall f, (f0 <= f)%Qc \/ (limit < rate)%Qc -> cal f = interp1d (A := QA) (map (row_point cal_mp) table) f).
Proof.
  unfold metronix. intros H. apply bind_ok in H as (p & Hp & H). apply bind_ok in H as (lines & Hl & H).
  apply bind_ok in H as (body & Hb & H). apply bind_ok in H as (table & Ht & H). apply section_ok in Hb.
  unfold calibration in H. apply bind_ok in H as ([] & Hn & H). apply check_ok in Hn. apply Nat.leb_le in Hn.
  apply bind_ok in H as (v & Hv & H). apply of_option_ok in Hv. apply bind_ok in H as (alpha & Ha & H). apply of_option_ok in Ha.
  destruct (find _ alphas) as [[v' al]|] eqn:Ef; [|discriminate]. injection Ha as ->.
  assert (v' = v) as ->. { apply find_some in Ef as (_ & E). unfold teqb in E. cbn [fst] in E. destruct (list_eq_dec _ v' v); [assumption|discriminate]. }
  destruct table as [|[[f0 m0] ph] table]; [discriminate|]. injection H as <-.
  exists p, lines, body, ((f0, m0, ph) :: table), (stem (List.last (p_parts p) [])), v, alpha, f0, m0.
  split; [exact Hp|]. split; [exact Hl|]. split; [exact Hb|]. split; [exact Ht|]. split; [exact Hn|].
  split; [apply stem_spec; reflexivity|]. split; [exact Hv|]. split; [exact Ef|]. split; [reflexivity|]. split.
  - intros f H1 H2. change (nltb QA f f0) with (Qcltb f f0). change (nleb QA rate limit) with (Qcleb rate limit).
    rewrite (proj2 (Qcltb_lt _ _) H1), (proj2 (Qcleb_le _ _) H2). reflexivity.
  - intros f H1. change (nltb QA f f0) with (Qcltb f f0). change (nleb QA rate limit) with (Qcleb rate limit). rewrite points_rows.
    destruct H1 as [H1|H1]; [rewrite (proj2 (Qcltb_ge _ _) H1); reflexivity|].
    rewrite (proj2 (Qcleb_gt _ _) H1), andb_false_r. reflexivity.
Qed.

(** success exactly when everything is there *)
Lemma metronix_ok filename rate limit alphas p lines body table st v alpha :
  get_data_file pkg cwd fs filename (txt "metronix_calibration") = Ok p -> read p = Ok lines ->
  section_of (Qcleb rate limit) lines body -> loadtxt body = Ok table -> 2 <= length table ->
  stem_of (List.last (p_parts p) []) st -> version_of st = Some v ->
  find (fun e => teqb (fst e) v) alphas = Some (v, alpha) ->
  exists cal, run filename rate limit alphas = Ok cal.
Proof.
  intros Hp Hl Hb Ht Hn Hs Hv Ha. unfold metronix. rewrite Hp. cbn [bind]. rewrite Hl. cbn [bind].
  apply section_ok in Hb. change (nleb QA rate limit) with (Qcleb rate limit). rewrite Hb. cbn [bind]. rewrite Ht. cbn [bind].
  unfold calibration. change (num QA) with Qc. rewrite (proj2 (Nat.leb_le _ _) Hn). cbn [check bind]. apply stem_spec in Hs. rewrite Hs, Hv. cbn [of_option bind].
  change (num QA) with Qc in *. rewrite Ha. cbn [option_map snd of_option bind]. destruct table as [|[[? ?] ?] table]; [simpl in Hn; lia|]. eauto.
Qed.

Lemma metronix_no_section filename rate limit alphas p lines :
  get_data_file pkg cwd fs filename (txt "metronix_calibration") = Ok p -> read p = Ok lines ->
  (forall body, ~ section_of (Qcleb rate limit) lines body) ->
  run filename rate limit alphas = Err StopIteration.
Proof.
  intros Hp Hl Hb. unfold metronix. rewrite Hp. cbn [bind]. rewrite Hl. cbn [bind]. change (nleb QA rate limit) with (Qcleb rate limit).
  destruct (section lines (Qcleb rate limit)) as [body|e] eqn:E.
  - apply section_ok in E. destruct (Hb _ E).
  - unfold section, start_stop in E. destruct (first_index _ _ _) in E; [discriminate|]. injection E as <-. reflexivity.
Qed.

Lemma metronix_version filename rate limit alphas p lines body table st :
  get_data_file pkg cwd fs filename (txt "metronix_calibration") = Ok p -> read p = Ok lines ->
  section_of (Qcleb rate limit) lines body -> loadtxt body = Ok table -> 2 <= length table ->
  stem_of (List.last (p_parts p) []) st ->
  (version_of st = None \/ exists v, version_of st = Some v /\ forall e, In e alphas -> fst e <> v) ->
  run filename rate limit alphas = Err ValueError.
Proof.
  intros Hp Hl Hb Ht Hn Hs Hv. unfold metronix. rewrite Hp. cbn [bind]. rewrite Hl. cbn [bind].
  apply section_ok in Hb. change (nleb QA rate limit) with (Qcleb rate limit). rewrite Hb. cbn [bind]. rewrite Ht. cbn [bind].
  unfold calibration. change (num QA) with Qc. rewrite (proj2 (Nat.leb_le _ _) Hn). cbn [check bind]. apply stem_spec in Hs. rewrite Hs.
  destruct Hv as [->|(v & -> & Hv)]; [reflexivity|]. cbn [of_option bind]. change (num QA) with Qc.
  destruct (find (fun e : text * Qc => teqb (fst e) v) alphas) as [e|] eqn:Ef; [|reflexivity].
  apply find_some in Ef as (Hin & E). exfalso. apply (Hv _ Hin). unfold teqb in E. destruct (list_eq_dec _ (fst e) v); [assumption|discriminate].
Qed.

(** every failure *)
Lemma metronix_fails filename rate limit alphas x :
  run filename rate limit alphas = Err x ->
  get_data_file pkg cwd fs filename (txt "metronix_calibration") = Err x \/
  exists p, get_data_file pkg cwd fs filename (txt "metronix_calibration") = Ok p /\
  (read p = Err x \/ exists lines, read p = Ok lines /\
   (x = StopIteration /\ (forall body, ~ section_of (Qcleb rate limit) lines body) \/
    exists body, section_of (Qcleb rate limit) lines body /\
    (loadtxt body = Err x \/ exists table, loadtxt body = Ok table /\
     (x = IndexError /\ length table < 2 \/
      x = ValueError /\ 2 <= length table /\
      forall st v, stem_of (List.last (p_parts p) []) st -> version_of st = Some v -> forall e, In e alphas -> fst e <> v)))).
Proof.
  intros H. destruct (get_data_file pkg cwd fs filename (txt "metronix_calibration")) as [p|y] eqn:Hp.
  2: { left. unfold metronix in H. rewrite Hp in H. cbn [bind] in H. injection H as <-. reflexivity. }
  right. exists p. split; [reflexivity|]. destruct (read p) as [lines|y] eqn:Hl.
  2: { left. unfold metronix in H. rewrite Hp in H. cbn [bind] in H. rewrite Hl in H. cbn [bind] in H. injection H as <-. reflexivity. }
  right. exists lines. split; [reflexivity|].
  destruct (section lines (Qcleb rate limit)) as [body|y] eqn:E.
  2: { left. assert (N : forall body, ~ section_of (Qcleb rate limit) lines body) by (intros body Hb; apply section_ok in Hb; congruence).
       rewrite (metronix_no_section filename rate limit alphas p lines Hp Hl N) in H. injection H as <-. auto. }
  right. exists body. split; [apply section_ok; exact E|].
  unfold metronix in H. rewrite Hp in H. cbn [bind] in H. rewrite Hl in H. cbn [bind] in H.
  change (nleb QA rate limit) with (Qcleb rate limit) in H. rewrite E in H. cbn [bind] in H.
  destruct (loadtxt body) as [table|y]; [|left; cbn [bind] in H; injection H as <-; reflexivity]. right. exists table. split; [reflexivity|]. cbn [bind] in H.
  unfold calibration in H. change (num QA) with Qc in H. destruct (Nat.leb_spec 2 (length table)) as [L|L]; cbn [check bind] in H; [right|left; injection H as <-; auto].
  destruct table as [|[[f0 m0] p0] table]; [simpl in L; lia|].
  assert (R : x = ValueError /\ forall st v, stem_of (List.last (p_parts p) []) st -> version_of st = Some v -> forall e, In e alphas -> fst e <> v).
  { destruct (version_of (stem (List.last (p_parts p) []))) as [v|] eqn:V.
    - cbn [of_option bind] in H. destruct (find _ _) as [e|] eqn:F in H; [discriminate|]. cbn [option_map of_option bind] in H. injection H as <-.
      split; [reflexivity|]. intros st v' Hst Hv e He Ee. apply stem_spec in Hst. rewrite Hst in V. rewrite V in Hv. injection Hv as <-.
      apply find_none with (x := e) in F; [|exact He]. destruct e as [n q]. cbn [fst] in *. subst n. unfold teqb in F. destruct (list_eq_dec ascii_dec v v) as [_|N]; [discriminate F|exact (N eq_refl)].
    - cbn [of_option bind] in H. injection H as <-. split; [reflexivity|]. intros st v' Hst Hv. apply stem_spec in Hst. congruence. }
  destruct R as [-> R]. auto.
Qed.
End Metronix.

(** ** phoenix *)
Lemma phoenix_ok n rows level cals : phoenix (A := QA) n rows level = Ok cals ->
  length cals = n /\ (exists r, In r rows /\ snd (fst r) = level) /\
  forall i cal, nth_error cals i = Some cal -> forall pts,
    pts = map (fun r => (fst (fst r), nth i (snd r) (0%Qc, 0%Qc))) (filter (fun r => Qceqb (snd (fst r)) level) rows) ->
    tabulation pts -> tabulates pts cal.
Proof.
  unfold phoenix. change (fun r => neqb QA (snd (fst r)) level) with (fun r : Qc * Qc * list cq => Qceqb (snd (fst r)) level).
  set (data := filter (fun r : Qc * Qc * list cq => Qceqb (snd (fst r)) level) rows).
  intros H. apply bind_ok in H as ([] & Hc & H). injection H as <-. apply check_ok in Hc.
  change (negb (length data =? 0) = true) in Hc.
  split; [rewrite map_length, seq_length; reflexivity|]. split.
  - destruct data as [|r l] eqn:E; [cbn in Hc; discriminate|]. exists r. assert (In r data) by (rewrite E; left; reflexivity).
    unfold data in H. apply filter_In in H as (H1 & H2). apply Qceqb_eq in H2. auto.
  - intros i cal Hi pts -> Ht. rewrite nth_error_map in Hi. destruct (nth_error (seq 0 n) i) as [j|] eqn:E; [|discriminate].
    rewrite nth_error_seq in E. destruct (i <? n); [|discriminate]. injection E as <-. injection Hi as <-. apply interp_tabulates. exact Ht.
Qed.

Lemma phoenix_err n rows level : (forall r, In r rows -> snd (fst r) <> level) -> phoenix (A := QA) n rows level = Err ValueError.
Proof.
  intros H. unfold phoenix. replace (filter _ rows) with (@nil (num QA * num QA * list (num QA * num QA))); [reflexivity|].
  symmetry. induction rows as [|r rows IH]; [reflexivity|]. cbn [filter].
  destruct (neqb QA (snd (fst r)) level) eqn:E; [|apply IH; intros; apply H; right; assumption].
  apply Qceqb_eq in E. destruct (H r (or_introl eq_refl) E).
Qed.
