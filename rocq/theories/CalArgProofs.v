(** Proofs about the calibrations given to a signal. *)
From Verif Require Import Base BaseLemmas Arith SyncModel SpecSet SetProofs FourierModel FourierSet CalArgModel SpecCalArg.

Lemma mapM_cons {X Y} (f : X -> res Y) x l : mapM f (x :: l) = (y <- f x ;; l' <- mapM f l ;; Ok (y :: l')).
Proof. reflexivity. Qed.

Section CalArg.
Context {A : Arith} {V C : Type} (one : C).
Variables (tone : num A -> nat -> nat -> C) (cmul : C -> C -> C) (cdot : list C -> list V -> C) (cdiv : C -> C -> C).
Notation calarg := (@calarg A C).
Notation calfun := (@calfun A C).
Notation ttf := (time_to_freq tone cmul cdot).
Notation fourier := (sync_fourier tone cmul cdot (fun (k : calfun) f => k f) cdiv).

Lemma wrapped_value (f : num A) (c : calarg) (v : C) : wrapped c f = Ok (Some v) <-> has_value f c v.
Proof. destruct c; simpl; [reflexivity| |split; [discriminate|contradiction]]. split; [intros H; injection H; auto|intros ->; reflexivity]. Qed.

Lemma made data rate start cals (s : sync A V calfun) : sync_make one data rate start cals = Ok s ->
  s_data s = data /\ s_rate s = rate /\ s_start s = start /\ length data = length (s_cal s) /\
  s_cal s = map wrapped (match cals with Some (c :: cs) => c :: cs | _ => repeat (CalNum one) (length data) end).
Proof.
  intros H. apply sync_new_inv in H as (H1 & H2 & H3 & H4 & H5). repeat (split; [assumption|]).
  pose proof (so_cal _ H4) as Hc. rewrite H1 in Hc. split; [congruence|]. rewrite H5.
  assert (G : forall n, repeat (wrapped (A := A) (CalNum one)) n = map wrapped (repeat (CalNum one) n)).
  { induction n as [|n IH]; [reflexivity|]. simpl. f_equal. exact IH. }
  destruct cals as [[|c cs]|]; simpl; [apply G|reflexivity|apply G].
Qed.

Lemma values_iff (f : num A) (cals : list calarg) vals :
  (exists l, mapM (fun k : calfun => k f) (map wrapped cals) = Ok l /\ mapM (of_option AssertionError) l = Ok vals) <-> Forall2 (has_value f) cals vals.
Proof.
  split.
  - intros (l & H1 & H2). revert l vals H1 H2. induction cals as [|c cals IH]; intros l vals H1 H2.
    + injection H1 as <-. injection H2 as <-. constructor.
    + simpl map in H1. rewrite mapM_cons in H1. apply bind_ok in H1 as (o & Ho & H1). apply bind_ok in H1 as (l' & Hl & H1). injection H1 as <-.
      rewrite mapM_cons in H2. apply bind_ok in H2 as (v & Hv & H2). apply bind_ok in H2 as (vals' & Hv' & H2). injection H2 as <-.
      apply of_option_ok in Hv. subst o. constructor; [apply wrapped_value; exact Ho|eapply IH; eassumption].
  - induction 1 as [|c v cals vals H1 H2 (l & IH1 & IH2)].
    + exists []. auto.
    + exists (Some v :: l). simpl map. rewrite mapM_cons. apply wrapped_value in H1. rewrite H1. cbn [bind]. rewrite IH1. cbn [bind]. split; [reflexivity|].
      rewrite mapM_cons. cbn [of_option bind]. rewrite IH2. reflexivity.
Qed.

Lemma ttf_length data rate f Nper ov w raw wd : ttf data rate f Nper ov w = Ok (raw, wd) -> length raw = length data.
Proof.
  unfold time_to_freq. intros H. apply bind_ok in H as (N & _ & H). apply bind_ok in H as ([] & _ & H). cbv zeta in H.
  apply bind_ok in H as ([[a b] c] & _ & H). apply bind_ok in H as (w' & _ & H). apply bind_ok in H as (r & Hr & H).
  apply bind_ok in H as (Nw & _ & H). injection H as -> _. exact (mapM_length _ _ _ Hr).
Qed.

Lemma divided (f : num A) (cals : list calarg) vals raw : Forall2 (has_value f) cals vals -> length raw = length cals ->
  calibrated cdiv f cals raw (map (fun p => map (fun c => cdiv c (snd p)) (fst p)) (combine raw vals)).
Proof.
  intros H Hl. pose proof (Forall2_len _ _ _ H) as Hv. split; [exact Hl|]. split; [rewrite map_length, combine_length; lia|].
  intros i c r x Hc Hr Hx. destruct (Forall2_nth_error _ _ _ _ _ H Hc) as (v & Hv' & Hcv). exists v. split; [exact Hcv|].
  rewrite nth_error_map in Hx. rewrite (nth_error_combine _ _ _ _ _ Hr Hv') in Hx. injection Hx as <-. cbn [fst snd].
  split; [apply map_length|]. intros j a Ha. rewrite nth_error_map, Ha. reflexivity.
Qed.
Lemma divided_unique (f : num A) (cals : list calarg) vals raw l : Forall2 (has_value f) cals vals -> calibrated cdiv f cals raw l ->
  l = map (fun p => map (fun c => cdiv c (snd p)) (fst p)) (combine raw vals).
Proof.
  intros H (H1 & H2 & H3). pose proof (Forall2_len _ _ _ H) as Hv. apply nth_error_ext. intros i. rewrite nth_error_map.
  destruct (nth_error l i) as [x|] eqn:Ex.
  - assert (Hi : i < length cals) by (rewrite <- H2; apply nth_error_Some; congruence).
    destruct (nth_error cals i) as [c|] eqn:Ec; [|apply nth_error_None in Ec; lia].
    destruct (nth_error raw i) as [r|] eqn:Er; [|apply nth_error_None in Er; lia].
    destruct (Forall2_nth_error _ _ _ _ _ H Ec) as (v & Hv' & Hcv). rewrite (nth_error_combine _ _ _ _ _ Er Hv'). cbn [option_map fst snd]. f_equal.
    destruct (H3 i c r x Ec Er Ex) as (v' & Hcv' & Hlen & Hj). assert (v' = v).
    { apply wrapped_value in Hcv, Hcv'. congruence. } subst v'.
    apply nth_error_ext. intros j. rewrite nth_error_map. destruct (nth_error r j) as [a|] eqn:Ea; [exact (Hj j a Ea)|].
    apply nth_error_None in Ea. apply nth_error_None. lia.
  - apply nth_error_None in Ex. rewrite (proj2 (nth_error_None _ _)); [reflexivity|]. rewrite combine_length. lia.
Qed.

Lemma made_fourier data rate start cals (s : sync A V calfun) f Nper ov w l wd :
  cals <> [] -> sync_make one data rate start (Some cals) = Ok s ->
  (fourier s f Nper ov w = Ok (l, wd) <->
   exists raw, ttf data rate f Nper ov w = Ok (raw, wd) /\ calibrated cdiv f cals raw l /\ forall c, In c cals -> exists v, has_value f c v).
Proof.
  intros Hne Hs. destruct (made _ _ _ _ _ Hs) as (H1 & H2 & _ & H4 & H5). destruct cals as [|c0 cs]; [congruence|].
  set (cals := c0 :: cs) in *. rewrite H5, map_length in H4. unfold sync_fourier. rewrite H1, H2, H5. split.
  - intros H. apply bind_ok in H as (o & Ho & H). apply bind_ok in H as (vals & Hv & H). apply bind_ok in H as ([raw wd'] & Hr & H). injection H as <- ->.
    assert (HF : Forall2 (has_value f) cals vals) by (apply values_iff; eauto).
    exists raw. split; [exact Hr|]. split; [apply divided; [exact HF|rewrite (ttf_length _ _ _ _ _ _ _ _ Hr); exact H4]|].
    intros c Hc. apply In_nth_error in Hc as (i & Hi). destruct (Forall2_nth_error _ _ _ _ _ HF Hi) as (v & _ & Hv'). eauto.
  - intros (raw & Hr & Hcal & Hex). assert (HF : exists vals, Forall2 (has_value f) cals vals).
    { clear -Hex. induction cals as [|c cals IH]; [exists []; constructor|]. destruct (Hex c (or_introl eq_refl)) as (v & Hv).
      destruct IH as (vals & IH); [intros c' Hc'; apply Hex; right; exact Hc'|]. exists (v :: vals). constructor; assumption. }
    destruct HF as (vals & HF). destruct (proj2 (values_iff f cals vals) HF) as (o & Ho & Hv). rewrite Ho. cbn [bind]. rewrite Hv. cbn [bind].
    rewrite Hr. cbn [bind]. rewrite (divided_unique _ _ _ _ _ HF Hcal). reflexivity.
Qed.

Lemma default_fourier data rate start cals (s : sync A V calfun) f Nper ov w :
  (forall x, cdiv x one = x) -> cals = None \/ cals = Some [] -> sync_make one data rate start cals = Ok s ->
  fourier s f Nper ov w = ttf data rate f Nper ov w.
Proof.
  intros H1x Hd Hs. destruct (made _ _ _ _ _ Hs) as (H1 & H2 & _ & H4 & H5). unfold sync_fourier. rewrite H1, H2, H5.
  assert (E : match cals with Some (c :: cs) => c :: cs | _ => repeat (CalNum one) (length data) end = repeat (CalNum (A := A) one) (length data)).
  { destruct Hd as [-> | ->]; reflexivity. }
  rewrite E. assert (HF : Forall2 (has_value f) (repeat (CalNum one) (length data)) (repeat one (length data))).
  { generalize (length data) as n. induction n as [|n IH]; simpl; constructor; [reflexivity|exact IH]. }
  destruct (proj2 (values_iff f _ _) HF) as (o & Ho & Hv). rewrite Ho. cbn [bind]. rewrite Hv. cbn [bind].
  destruct (ttf data rate f Nper ov w) as [[raw wd]|e] eqn:Er; [|reflexivity]. cbn [bind]. do 2 f_equal.
  pose proof (ttf_length _ _ _ _ _ _ _ _ Er) as Hl. rewrite <- Hl. clear -H1x. induction raw as [|r raw IH]; [reflexivity|]. simpl. f_equal; [|exact IH].
  rewrite <- (map_id r) at 2. apply map_ext. exact H1x.
Qed.

Lemma none_fourier data rate start cals (s : sync A V calfun) f Nper ov w :
  sync_make one data rate start (Some cals) = Ok s -> In CalNone cals ->
  (forall g, In (CalFun g) cals -> exists v, g f = Ok v) -> fourier s f Nper ov w = Err AssertionError.
Proof.
  intros Hs Hin Hok. destruct (made _ _ _ _ _ Hs) as (H1 & H2 & _ & H4 & H5). destruct cals as [|c0 cs]; [destruct Hin|].
  set (cals := c0 :: cs) in *. unfold sync_fourier. rewrite H5.
  assert (G : forall cals : list calarg, In CalNone cals -> (forall g, In (CalFun g) cals -> exists v, g f = Ok v) ->
    exists l, mapM (fun k : calfun => k f) (map wrapped cals) = Ok l /\ In None l).
  { clear. induction cals as [|c cals IH]; intros Hin Hok; [destruct Hin|]. assert (Hall : exists l, mapM (fun k : calfun => k f) (map wrapped cals) = Ok l).
    { apply mapM_ok_exists. intros k Hk. apply in_map_iff in Hk as (c' & <- & Hc'). destruct c' as [g|x|]; simpl; eauto. apply Hok. right. exact Hc'. }
    destruct Hall as (l & Hl). simpl map. rewrite mapM_cons.
    assert (Hc : exists o, wrapped c f = Ok o /\ (c = CalNone -> o = None)).
    { destruct c as [g|x|]; simpl; [destruct (Hok g (or_introl eq_refl)) as (v & Hv); exists v; split; [exact Hv|discriminate]|exists (Some x); split; [reflexivity|discriminate]|eauto]. }
    destruct Hc as (o & Ho & Hoc). rewrite Ho. cbn [bind]. rewrite Hl. cbn [bind]. exists (o :: l). split; [reflexivity|].
    destruct Hin as [E|Hin]; [left; apply Hoc; exact E|]. right.
    destruct (IH Hin) as (l' & Hl' & Hn); [intros g Hg; apply Hok; right; exact Hg|]. rewrite Hl in Hl'. injection Hl' as <-. exact Hn. }
  destruct (G cals Hin Hok) as (l & Hl & Hn). rewrite Hl. cbn [bind].
  assert (E : mapM (of_option AssertionError) l = Err AssertionError (A := list C)).
  { clear -Hn. induction l as [|o l IH]; [destruct Hn|]. rewrite mapM_cons. destruct o as [v|]; [|reflexivity]. cbn [of_option bind].
    destruct Hn as [E|Hn]; [discriminate|]. rewrite (IH Hn). reflexivity. }
  rewrite E. reflexivity.
Qed.
End CalArg.
