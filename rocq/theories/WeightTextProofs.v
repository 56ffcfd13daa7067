(** The texts of weights and the sequences of weights. *)
From Coq Require Import QArith Qpower.
From Verif Require Import Base BaseLemmas SpecRepr ReprProofs NumTextModel SpecNumText NumTextUnique SpecSetText SetTextProofs WeightTextModel SpecWeightText.
Open Scope nat_scope. Local Open Scope string_scope. Local Open Scope list_scope. Local Open Scope nat_scope.

Fixpoint wobj_ind2 (P : wobj -> Prop) (H0 : P WNone) (H1 : forall n t, P (WFunc n t)) (H2 : forall a, P (WHuber a)) (H3 : forall x, P (WThomson x))
  (H4 : forall i l k, P i -> P (WBounded i l k)) (H5 : forall c n, Forall P c -> P (WSeq c n)) (w : wobj) : P w :=
  match w with
  | WNone => H0 | WFunc n t => H1 n t | WHuber a => H2 a | WThomson x => H3 x
  | WBounded i l k => H4 i l k (wobj_ind2 P H0 H1 H2 H3 H4 H5 i)
  | WSeq c n => H5 c n ((fix go c := match c return Forall P c with [] => Forall_nil P | x :: c => Forall_cons x (wobj_ind2 P H0 H1 H2 H3 H4 H5 x) (go c) end) c)
  end.

Lemma titled_iff w s n : titled w s n <-> label w s = Some n.
Proof. unfold label, name_of. split; [intros H; destruct H; reflexivity|]. destruct w as [| | | | |c [m|]]; intros H; try discriminate; injection H as <-; constructor. Qed.

Lemma six x t : approx 6 x t <-> gtext 6 x = t. Proof. apply approx_iff. lia. Qed.

Definition labels_of (c : list wobj) : res (list string) :=
  labels <- mapM (fun e => s <- wstr e ;; Ok (label e s)) c ;; mapM (of_option TypeError) labels.
Lemma wstr_seq c : wstr (WSeq c None) = (labels <- labels_of c ;; Ok ("(" ++ String.concat ", " labels ++ ")")%string).
Proof. unfold labels_of. cbn [wstr]. destruct (mapM _ c); reflexivity. Qed.

Lemma members_ok c ts : Forall (fun w => forall t, wstr w = Ok t <-> shown w t) c -> (labels_of c = Ok ts <-> members c ts).
Proof.
  intros H. unfold labels_of. revert ts. induction H as [|w c Hw Hc IH]; intros ts.
  - cbn. split; [intros E; injection E as <-; constructor|]. inversion 1. reflexivity.
  - cbn [mapM]. split.
    + intros E. apply bind_ok in E as (ls & E1 & E2). apply bind_ok in E1 as (y & Ey & E1). apply bind_ok in Ey as (s & Es & Ey). injection Ey as <-. apply bind_ok in E1 as (ys & Eys & E1). injection E1 as <-.
      cbn [mapM] in E2. apply bind_ok in E2 as (n & En & E2). apply bind_ok in E2 as (ns & Ens & E2). injection E2 as <-.
      destruct (label w s) as [n'|] eqn:L; [|discriminate]. injection En as <-. apply me_cons with s; [apply Hw; exact Es|apply titled_iff; exact L|]. apply IH. rewrite Eys. exact Ens.
    + intros M. inversion M as [|w' s n c' ts' Hs Ht Hm]; subst. apply Hw in Hs. apply titled_iff in Ht. apply IH in Hm. apply bind_ok in Hm as (ys & Eys & Hm). rewrite Hs. cbn [bind]. rewrite Eys. cbn [bind mapM]. rewrite Ht. cbn [of_option bind]. rewrite Hm. reflexivity.
Qed.

Lemma wstr_iff w : forall t, wstr w = Ok t <-> shown w t.
Proof.
  induction w as [|n0 t0|a|x|i l k IH|c [n|] IH] using wobj_ind2; intros t.
  - cbn. split; [intros E; injection E as <-; constructor|inversion 1; reflexivity].
  - cbn. split; [intros E; injection E as <-; constructor|inversion 1; reflexivity].
  - cbn [wstr]. split; [intros E; apply ok_eq in E; subst t; apply sw_huber, six; reflexivity|]. inversion 1 as [| |a' t' Ha| | | | |]; subst. apply six in Ha. rewrite Ha. reflexivity.
  - destruct x as [x|]; cbn [wstr].
    + split; [intros E; apply ok_eq in E; subst t; apply sw_threshold, six; reflexivity|]. inversion 1 as [| | | |a' t' Ha| | |]; subst. apply six in Ha. rewrite Ha. reflexivity.
    + split; [intros E; injection E as <-; constructor|inversion 1; reflexivity].
  - cbn [wstr]. split.
    + intros E. apply bind_ok in E as (s & Es & E). apply ok_eq in E. subst t. apply IH in Es. eapply sw_bounded; [exact Es| |apply six; reflexivity|apply six; reflexivity].
      destruct (label i s) as [n|] eqn:L; [left; apply titled_iff; exact L|right]. unfold label, name_of in L. destruct i as [| | | | |c [m|]]; try discriminate. exists c. auto.
    + inversion 1 as [| | | | |i' l' k' s n tl tk Hs Hn Hl Hk| |]; subst. apply IH in Hs. rewrite Hs. cbn [bind]. apply six in Hl, Hk. rewrite Hl, Hk.
      destruct Hn as [Hn|(c & -> & ->)]; [apply titled_iff in Hn; rewrite Hn; reflexivity|reflexivity].
  - cbn. split; [intros E; injection E as <-; constructor|inversion 1; reflexivity].
  - rewrite wstr_seq. pose proof (fun ts => members_ok c ts IH) as M. split.
    + intros E. apply bind_ok in E as (ls & El & E). apply ok_eq in E. subst t. rewrite concat_listed. constructor. apply M. exact El.
    + inversion 1 as [| | | | | | |c' ts Hm]; subst. apply M in Hm. rewrite Hm. cbn [bind]. rewrite concat_listed. reflexivity.
Qed.
Lemma wstr_type w : forall e, wstr w = Err e -> e = TypeError.
Proof.
  induction w as [|n0 t0|a|x|i l k IH|c [n|] IH] using wobj_ind2; intros e; try discriminate.
  - destruct x; discriminate.
  - cbn [wstr]. destruct (wstr i) as [s|x] eqn:E; cbn [bind]; [discriminate|]. intros H. injection H as <-. apply IH. reflexivity.
  - rewrite wstr_seq. destruct (labels_of c) as [ls|x] eqn:E; cbn [bind]; [discriminate|]. intros H. injection H as <-. unfold labels_of in E.
    destruct (mapM (fun e => s <- wstr e ;; Ok (label e s)) c) as [ls|y] eqn:L; cbn [bind] in E.
    + apply mapM_first in E as (l1 & o & l2 & _ & _ & E). destruct o; [discriminate|]. injection E as <-. reflexivity.
    + injection E as <-. apply mapM_first in L as (l1 & w & l2 & -> & _ & L). rewrite Forall_forall in IH. destruct (wstr w) as [s|z] eqn:Ew; cbn [bind] in L; [discriminate|]. injection L as <-. apply (IH w); [apply in_elt|exact Ew].
Qed.
Lemma wstr_simple w : simple w -> exists t, wstr w = Ok t.
Proof. induction w as [|n0 t0|a|x|i l k IH|c n IH] using wobj_ind2; cbn [simple]; intros H; [eexists; reflexivity|eexists; reflexivity|eexists; reflexivity|destruct x; eexists; reflexivity| |tauto]. destruct (IH H) as [t E]. cbn [wstr]. rewrite E. eexists. reflexivity. Qed.
Lemma simple_titled w s : simple w -> exists n, titled w s n.
Proof. destruct w as [| | | | |c n]; cbn; intros H; try (eexists; constructor). destruct H. Qed.
Lemma sequence_text c : (forall w, In w c -> simple w) -> exists ts, members c ts /\ wstr (WSeq c None) = Ok ("(" ++ listed ts ++ ")")%string.
Proof.
  intros H. assert (M : exists ts, members c ts).
  { induction c as [|w c IH]; [exists []; constructor|]. destruct IH as [ts Hts]; [intros x Hx; apply H; right; exact Hx|]. assert (Sw : simple w) by (apply H; left; reflexivity). destruct (wstr_simple w Sw) as [s Es].
    destruct (simple_titled w s Sw) as [n Hn]. exists (n :: ts). apply me_cons with s; [apply wstr_iff; exact Es|exact Hn|exact Hts]. }
  destruct M as [ts M]. exists ts. split; [exact M|]. apply wstr_iff. constructor. exact M.
Qed.
Lemma nested_fails c1 d c2 : exists e, wstr (WSeq (c1 ++ WSeq d None :: c2) None) = Err e.
Proof.
  destruct (wstr (WSeq (c1 ++ WSeq d None :: c2) None)) as [t|e] eqn:E; [exfalso|eauto]. apply wstr_iff in E. inversion E as [| | | | | | |c ts M]; subst. clear E. revert ts M.
  induction c1 as [|w c1 IH]; intros ts M; inversion M as [|w' s n c ts' Hs Ht Hm]; subst; [inversion Ht|eapply IH; eassumption].
Qed.

(** ** sequences *)
Lemma w_index_spec c n i w : w_index (WSeq c n) i = Ok w <-> exists k, nth_error c k = Some w /\ (i = Z.of_nat k \/ i = Z.of_nat k - Z.of_nat (length c))%Z.
Proof.
  unfold w_index, py_nth, znth_res, nth_res. cbn [w_iter]. split.
  - destruct (Z.ltb_spec i 0).
    + destruct (Z.ltb_spec (i + Z.of_nat (length c)) 0); [discriminate|]. destruct (nth_error c (Z.to_nat (i + Z.of_nat (length c)))) eqn:E; [|discriminate]. intros Q. injection Q as <-. eexists. split; [exact E|lia].
    + destruct (Z.ltb_spec i 0); [lia|]. destruct (nth_error c (Z.to_nat i)) eqn:E; [|discriminate]. intros Q. injection Q as <-. eexists. split; [exact E|lia].
  - intros (k & E & [->| ->]); assert (k < length c) by (apply nth_error_Some; congruence).
    + destruct (Z.ltb_spec (Z.of_nat k) 0); [lia|]. destruct (Z.ltb_spec (Z.of_nat k) 0); [lia|]. rewrite Nat2Z.id, E. reflexivity.
    + destruct (Z.ltb_spec (Z.of_nat k - Z.of_nat (length c)) 0); [|lia]. replace (Z.of_nat k - Z.of_nat (length c) + Z.of_nat (length c))%Z with (Z.of_nat k) by lia.
      destruct (Z.ltb_spec (Z.of_nat k) 0); [lia|]. rewrite Nat2Z.id, E. reflexivity.
Qed.
Lemma w_index_fails c n i e : w_index (WSeq c n) i = Err e <-> e = IndexError /\ (i < - Z.of_nat (length c) \/ Z.of_nat (length c) <= i)%Z.
Proof.
  unfold w_index, py_nth, znth_res, nth_res. cbn [w_iter]. destruct (Z.ltb_spec i 0).
  - destruct (Z.ltb_spec (i + Z.of_nat (length c)) 0).
    + split; [intros Q; injection Q as <-; split; [reflexivity|lia]|intros [-> _]; reflexivity].
    + destruct (nth_error c (Z.to_nat (i + Z.of_nat (length c)))) eqn:E; cbn [of_option]; [split; [discriminate|lia]|]. apply nth_error_None in E. lia.
  - destruct (Z.ltb_spec i 0); [lia|]. destruct (nth_error c (Z.to_nat i)) eqn:E; cbn [of_option].
    + split; [discriminate|]. assert (Z.to_nat i < length c) by (apply nth_error_Some; congruence). lia.
    + apply nth_error_None in E. split; [intros Q; injection Q as <-; split; [reflexivity|lia]|intros [-> _]; reflexivity].
Qed.
Lemma thomson_new_iff xi w : thomson_new xi = Ok w <-> w = WThomson xi /\ match xi with None => True | Some x => (0 < x)%Q end.
Proof.
  unfold thomson_new. destruct xi as [x|]; cbn; [|split; [intros E; injection E as <-; auto|intros [-> _]; reflexivity]].
  destruct (Qle_bool x 0) eqn:E; cbn.
  - apply Qle_bool_iff in E. split; [discriminate|]. intros [_ H]. exfalso. apply (Qle_not_lt _ _ E H).
  - assert (~ (x <= 0)%Q) by (rewrite <- Qle_bool_iff; congruence). split; [intros Q; injection Q as <-; split; [reflexivity|apply Qnot_le_lt; assumption]|intros [-> _]; reflexivity].
Qed.
Lemma thomson_new_fails xi e : thomson_new xi = Err e <-> e = AssertionError /\ exists x, xi = Some x /\ (x <= 0)%Q.
Proof.
  unfold thomson_new. destruct xi as [x|]; cbn; [|split; [discriminate|intros (_ & x & E & _); discriminate]].
  destruct (Qle_bool x 0) eqn:E; cbn.
  - apply Qle_bool_iff in E. split; [intros Q; injection Q as <-; split; [reflexivity|eauto]|intros [-> _]; reflexivity].
  - split; [discriminate|]. intros (_ & y & Q & H). injection Q as <-. apply Qle_bool_iff in H. congruence.
Qed.
Lemma weights_len c n : w_len (weights_new c n) = length c. Proof. reflexivity. Qed.
Lemma weights_iter c n : w_iter (weights_new c n) = c. Proof. reflexivity. Qed.
Lemma weights_text c n : wstr (weights_new c n) = match n with Some (String a s) => Ok (String a s) | _ => wstr (weights_new c None) end.
Proof. destruct n as [[|a s]|]; reflexivity. Qed.

Lemma bi_obj_text prob n dim lower upper t : wstr (bi_weights_obj prob n dim lower upper) = Ok t <->
  exists a b c, approx 6 prob a /\ approx 6 (inject_Z n) b /\ approx 6 dim c /\ t = ("bi_weights(" ++ a ++ ", " ++ b ++ ", " ++ c ++ ")")%string.
Proof.
  unfold bi_weights_obj. change (wstr _) with (Ok ("bi_weights(" ++ gtext 6 prob ++ ", " ++ gtext 6 (inject_Z n) ++ ", " ++ gtext 6 dim ++ ")")%string). split.
  - intros E. apply ok_eq in E. subst t. do 3 eexists. repeat split; apply six; reflexivity.
  - intros (a & b & c & Ha & Hb & Hc & ->). apply six in Ha, Hb, Hc. rewrite Ha, Hb, Hc. reflexivity.
Qed.
Lemma bi_obj_members prob n dim lower upper : let w := bi_weights_obj prob n dim lower upper in let N := Z.to_nat n in
  w_len w = N + 2 /\ w_index w 0 = Ok WNone /\ w_index w (-1) = Ok (WBounded (WThomson None) lower upper) /\
  forall j, j < N -> exists lo up, w_index w (Z.of_nat (1 + j)) = Ok (WBounded (WHuber (3 # 2)) lo up) /\
    (lo * inject_Z (2 ^ Z.of_nat (N - 1 - j)) == lower)%Q /\ (up == upper * inject_Z (2 ^ Z.of_nat (N - 1 - j)))%Q.
Proof.
  cbn zeta. unfold bi_weights_obj, weights_new, w_len. cbn [w_iter]. set (f := fun i => WBounded (WHuber (3 # 2)) (lower * Qpower 2 (- Z.of_nat i)) (upper * Qpower 2 (Z.of_nat i))). set (N := Z.to_nat n).
  assert (L : length ([WNone] ++ rev (map f (seq 0 N)) ++ [WBounded (WThomson None) lower upper]) = N + 2) by (cbn; rewrite !app_length, rev_length, map_length, seq_length; cbn; lia).
  split; [exact L|]. split; [reflexivity|]. split.
  - apply w_index_spec. exists (N + 1). rewrite L. split; [|lia]. replace (N + 1) with (S N) by lia. cbn. rewrite nth_error_app2; rewrite rev_length, map_length, seq_length; [|lia]. rewrite Nat.sub_diag. reflexivity.
  - intros j Hj. exists (lower * Qpower 2 (- Z.of_nat (N - 1 - j)))%Q, (upper * Qpower 2 (Z.of_nat (N - 1 - j)))%Q. split; [|split].
    + apply w_index_spec. exists (1 + j). split; [|lia]. cbn. rewrite nth_error_app1 by (rewrite rev_length, map_length, seq_length; lia).
      rewrite nth_error_nth' with (d := f 0) by (rewrite rev_length, map_length, seq_length; lia). rewrite rev_nth by (rewrite map_length, seq_length; lia). rewrite map_length, seq_length. rewrite map_nth. rewrite seq_nth by lia.
      replace (N - S j) with (N - 1 - j) by lia. reflexivity.
    + rewrite <- Qmult_assoc. rewrite (Qpower_opp 2). rewrite Zpower_Qpower by lia. change (inject_Z 2) with 2%Q. rewrite (Qmult_comm (/ _)). rewrite Qmult_inv_r; [ring|]. intros E. apply (Qpower_not_0 2 (Z.of_nat (N - 1 - j))); [discriminate|exact E].
    + rewrite Zpower_Qpower by lia. reflexivity.
Qed.
