(** Fourier coefficients of runs and of signal sets. *)
From Coq Require Import QArith Qcanon Lqa.
From Verif Require Import Base BaseLemmas SliceLemmas Arith OrdLaws QcLemmas TagsModel SyncModel SetModel SpecSet FourierModel SpecFourier FourierProofs.
Open Scope nat_scope.

Lemma min_len_const {T} (ll : list (list T)) n : ll <> [] -> (forall l, In l ll -> length l = n) -> min_len ll = n.
Proof.
  induction ll as [|l ll IH]; intros Hne H; [congruence|]. simpl. destruct ll as [|l' ll'].
  - apply H. left. reflexivity.
  - rewrite IH; [|discriminate|intros z Hz; apply H; right; exact Hz]. rewrite (H l (or_introl eq_refl)). lia.
Qed.

Lemma pyzip_spec {T} (ll : list (list T)) n : ll <> [] -> (forall l, In l ll -> length l = n) ->
  length (pyzip ll) = n /\ forall j col, nth_error (pyzip ll) j = Some col -> Forall2 (fun l x => nth_error l j = Some x) ll col.
Proof.
  intros Hne H. unfold pyzip. rewrite (min_len_const ll n Hne H). split; [rewrite map_length, seq_length; reflexivity|].
  intros j col Hj. apply nth_error_map_some in Hj as (j' & Hj' & E). rewrite nth_error_seq in Hj'. destruct (Nat.ltb_spec j n) as [Hjn|]; [|discriminate].
  injection Hj' as <-. cbn [plus] in E. subst col. clear Hne. induction ll as [|l ll IH]; [constructor|]. simpl.
  destruct (nth_error l j) as [x|] eqn:E; [|apply nth_error_None in E; rewrite (H l (or_introl eq_refl)) in E; lia].
  simpl. constructor; [exact E|]. apply IH. intros z Hz. apply H. right. exact Hz.
Qed.

Section P.
Context {A : Arith} {V K C : Type}.
Variables (tone : num A -> nat -> nat -> C) (cmul : C -> C -> C) (cdot : list C -> list V -> C).
Variables (calib : K -> num A -> res (option C)) (cdiv : C -> C -> C).
Notation ttf := (time_to_freq tone cmul cdot).
Notation sfour := (sync_fourier tone cmul cdot calib cdiv).
Notation four := (set_fourier tone cmul cdot calib cdiv).

Lemma nth_error_combine {X Y} (l : list X) (l' : list Y) n x y : nth_error l n = Some x -> nth_error l' n = Some y -> nth_error (combine l l') n = Some (x, y).
Proof. revert l l'. induction n as [|n IH]; intros [|a l] [|b l']; simpl; try discriminate; [congruence|apply IH]. Qed.

Lemma sync_fourier_spec (s : sync A V K) f Nper ov w r Nw L sh : length (s_data s) = length (s_cal s) ->
  sfour s f Nper ov w = Ok (r, (Nw, L, sh)) ->
  length r = length (s_data s) /\
  forall c l, nth_error r c = Some l -> length l = Nw /\ run_coeffs tone cmul cdot calib cdiv f w s c L sh l.
Proof.
  intros Hc H. unfold sync_fourier in H. apply bind_ok in H as (cs & Hcs & H). apply bind_ok in H as (cals & Hcals & H).
  apply bind_ok in H as ([co [[Nw' L'] sh']] & Ht & H). injection H as <- <- <- <-.
  apply time_to_freq_spec in Ht. pose proof (spectrum_count _ _ _ _ _ _ _ _ _ _ _ _ _ Ht) as (Hsh & size & Hsz & HN & _).
  destruct Ht as (size' & nw & Hd & _ & _ & _ & _ & o & x & Ho & Hx & Hall).
  assert (El : length cals = length (s_data s)).
  { rewrite (mapM_length _ _ _ Hcals), (mapM_length _ _ _ Hcs). symmetry. exact Hc. }
  pose proof (Forall2_len _ _ _ Hall) as Elr. split; [rewrite map_length, combine_length; lia|].
  intros c l Hl. apply nth_error_map_some in Hl as ([l0 v] & Hl & E). cbn [fst snd] in E.
  assert (Hlt : c < length (combine co cals)) by (apply nth_error_Some; congruence). rewrite combine_length in Hlt.
  destruct (nth_error co c) as [l1|] eqn:E1; [|apply nth_error_None in E1; lia].
  destruct (nth_error cals c) as [v1|] eqn:E2; [|apply nth_error_None in E2; lia].
  rewrite (nth_error_combine _ _ _ _ _ E1 E2) in Hl. injection Hl as -> ->.
  split; [subst l; rewrite map_length; apply HN, (nth_error_In _ _ E1)|].
  destruct (Forall2_nth_error_r _ _ _ _ _ Hall E1) as (y & Hy & Hco).
  destruct (mapM_nth_r _ _ _ _ _ Hcals E2) as (o2 & Ho2 & Eo2). apply of_option_ok in Eo2. subst o2.
  destruct (mapM_nth_r _ _ _ _ _ Hcs Ho2) as (k & Hk & Ek).
  exists (mkSeg (s_rate s) (s_start s) y k), v, o, x. split; [repeat split; assumption|]. split; [exact Ek|]. split; [exact Ho|]. split; [exact Hx|].
  intros i z. cbn [g_vals]. subst l. split.
  - intros Hz. apply nth_error_map_some in Hz as (z0 & Hz0 & Ez). apply Hco in Hz0 as (win & Hw & ->). exists win. split; [exact Hw|congruence].
  - intros (win & Hw & ->). apply (map_nth_error (fun z => cdiv z v)), Hco. exists win. split; [exact Hw|reflexivity].
Qed.

Lemma sync_fourier_ok (s : sync A V K) f Nper ov w :
  (exists r, sfour s f Nper ov w = Ok r) <->
  (forall k, In k (s_cal s) -> exists v, calib k f = Ok (Some v)) /\ exists r, ttf (s_data s) (s_rate s) f Nper ov w = Ok r.
Proof.
  split.
  - intros (r & H). unfold sync_fourier in H. apply bind_ok in H as (cs & Hcs & H). apply bind_ok in H as (cals & Hcals & H).
    apply bind_ok in H as ([co wd] & Ht & H). split; [|eexists; exact Ht].
    intros k Hk. destruct (mapM_In _ _ _ _ Hcs Hk) as (o & Ho & Eo).
    destruct (mapM_In _ _ _ _ Hcals Ho) as (v & _ & Ev). apply of_option_ok in Ev. subst o. exists v. exact Eo.
  - intros (Hk & [co wd] & Ht). unfold sync_fourier.
    destruct (mapM_ok_exists (fun k => calib k f) (s_cal s)) as (cs & Hcs); [intros k Hin; destruct (Hk k Hin) as (v & Hv); eauto|].
    rewrite Hcs. cbn [bind].
    destruct (mapM_ok_exists (of_option AssertionError) cs) as (cals & Hcals).
    { intros o Ho. destruct (mapM_In_r _ _ _ _ Hcs Ho) as (k & Hin & Ek). destruct (Hk k Hin) as (v & Hv). exists v. rewrite Hv in Ek. injection Ek as <-. reflexivity. }
    rewrite Hcals. cbn [bind]. rewrite Ht. eexists. reflexivity.
Qed.

Lemma set_fourier_empty (X : @sigset A V K) f Nper ov w : ss_signals X = [] -> four X f Nper ov w = Err ValueError.
Proof. intros E. unfold set_fourier. rewrite E. reflexivity. Qed.

Lemma set_fourier_ok (X : @sigset A V K) f Nper ov w :
  (exists r, four X f Nper ov w = Ok r) <-> ss_signals X <> [] /\ forall s, In s (ss_signals X) -> exists r, sfour s f Nper ov w = Ok r.
Proof.
  unfold set_fourier. split.
  - intros (r & H). apply bind_ok in H as (l & Hl & H). split.
    + intros E. rewrite E in Hl. injection Hl as <-. discriminate.
    + intros s Hs. destruct (mapM_In _ _ _ _ Hl Hs) as (x & _ & Hx). eauto.
  - intros (Hne & H). destruct (mapM_ok_exists (fun s => sfour s f Nper ov w) (ss_signals X) H) as (l & Hl). rewrite Hl. cbn [bind].
    destruct l; [|eexists; reflexivity]. apply mapM_length in Hl. destruct (ss_signals X); [congruence|discriminate].
Qed.

Lemma list_sum_lengths {T} (ll : list (list T)) : length (concat ll) = list_sum (map (@length T) ll).
Proof. induction ll as [|l ll IH]; simpl; [reflexivity|]. rewrite app_length, IH. reflexivity. Qed.

Lemma set_fourier_spec (X : @sigset A V K) f Nper ov w coeffs Nws Ls shs : wf_set X ->
  four X f Nper ov w = Ok (coeffs, (Nws, Ls, shs)) ->
  length coeffs = nb_channels X /\ length Nws = nb_runs X /\ length Ls = nb_runs X /\ length shs = nb_runs X /\
  forall c l, nth_error coeffs c = Some l ->
    length l = list_sum Nws /\
    exists parts, l = concat parts /\ map (@length C) parts = Nws /\
    forall i part, nth_error parts i = Some part -> exists s L sh,
      nth_error (ss_signals X) i = Some s /\ nth_error Ls i = Some L /\ nth_error shs i = Some sh /\
      run_coeffs tone cmul cdot calib cdiv f w s c L sh part.
Proof.
  intros W H. unfold set_fourier in H. apply bind_ok in H as (l & Hl & H).
  assert (Hne : l <> []) by (intros ->; discriminate).
  assert (Hres : four X f Nper ov w = four X f Nper ov w) by reflexivity.
  pose proof (mapM_length _ _ _ Hl) as Elen.
  assert (Hrun : forall i rw, nth_error l i = Some rw -> exists s, nth_error (ss_signals X) i = Some s /\
     length (fst rw) = nb_channels X /\ forall c part, nth_error (fst rw) c = Some part -> length part = fst (fst (snd rw)) /\
       run_coeffs tone cmul cdot calib cdiv f w s c (snd (fst (snd rw))) (snd (snd rw)) part).
  { intros i [r [[n L] sh]] Hi. destruct (mapM_nth_r _ _ _ _ _ Hl Hi) as (s & Hs & Es). exists s. split; [exact Hs|].
    pose proof (nth_error_In _ _ Hs) as Hin. destruct (ws_sync _ W s Hin) as [Sz Sc].
    destruct (sync_fourier_spec s f Nper ov w r n L sh) as (Hr & Hc); [congruence|exact Es|]. cbn [fst snd]. split; [|exact Hc].
    rewrite Hr. unfold nb_channels, nb_channels_of. destruct (ss_signals X) as [|s0 ss] eqn:ES; [destruct i; discriminate|]. rewrite <- ES in *.
    rewrite (ws_chan _ W s Hin). symmetry. apply (ws_chan _ W). rewrite ES. left. reflexivity. }
  destruct l as [|rw0 l0] eqn:E; [congruence|]. rewrite <- E in *. injection H as <- <- <- <-.
  assert (Hn : forall r, In r (map fst l) -> length r = nb_channels X).
  { intros r Hr. apply in_map_iff in Hr as (rw & <- & Hin). destruct (In_nth_error _ _ Hin) as (i & Hi). destruct (Hrun i rw Hi) as (s & _ & Hr & _). exact Hr. }
  destruct (pyzip_spec (map fst l) (nb_channels X)) as (Hz1 & Hz2); [rewrite E; discriminate|exact Hn|].
  rewrite !map_length. unfold nb_runs. split; [exact Hz1|]. split; [exact Elen|]. split; [exact Elen|]. split; [exact Elen|].
  intros c lc Hc. apply nth_error_map_some in Hc as (parts & Hp & Ec). apply Hz2 in Hp.
  assert (Hpart : forall i part, nth_error parts i = Some part -> exists rw, nth_error l i = Some rw /\ nth_error (fst rw) c = Some part).
  { intros i part Hi. destruct (Forall2_nth_error_r _ _ _ _ _ Hp Hi) as (r & Hr & Hrc). apply nth_error_map_some in Hr as (rw & Hrw & ->). eauto. }
  assert (EN : map (@length C) parts = map (fun w => fst (fst w)) (map snd l)).
  { apply nth_error_ext. intros i. pose proof (Forall2_len _ _ _ Hp) as Elp. rewrite map_length in Elp.
    rewrite !nth_error_map. destruct (nth_error parts i) as [part|] eqn:Ei; simpl.
    - destruct (Hpart i part Ei) as (rw & Hrw & Hc). rewrite Hrw. simpl. destruct (Hrun i rw Hrw) as (s & _ & _ & Hq). destruct (Hq c part Hc) as (El & _). congruence.
    - apply nth_error_None in Ei. rewrite (proj2 (nth_error_None l i)) by lia. reflexivity. }
  split; [rewrite Ec, list_sum_lengths, EN; reflexivity|]. exists parts. split; [exact Ec|]. split; [exact EN|].
  intros i part Hi. destruct (Hpart i part Hi) as (rw & Hrw & Hcp). destruct (Hrun i rw Hrw) as (s & Hs & _ & Hq). destruct (Hq c part Hcp) as (_ & Hq').
  exists s, (snd (fst (snd rw))), (snd (snd rw)). split; [exact Hs|]. rewrite !nth_error_map, Hrw. repeat split; exact Hq'.
Qed.
End P.
