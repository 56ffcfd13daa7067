(** The rejected windows of an estimate and their times (C58, C59). *)
From Verif Require Import Base BaseLemmas Arith OrdLaws TagsModel SyncModel SetModel SpecSet SetProofs FourierModel FourierSet MestModel SpecMest UtilsModel SpecUtils UtilsProofs UtilsRun StageProofs.

Section Rejects.
Context {k : Kern} (U : UK k) {V K St : Type}.
Implicit Types (a : @iargs k St) (X : @sigset (kA k) V K) (coeffs : list (list (kE k))) (st : St).

Lemma stage_det o outs ins ws pf iv st l1 s1 l2 s2 : stage U (St := St) o outs ins ws pf iv st l1 s1 -> stage U o outs ins ws pf iv st l2 s2 -> l1 = l2 /\ s1 = s2.
Proof. intros (i1 & A1 & B1) (i2 & A2 & B2). rewrite A1 in A2. injection A2 as <-. rewrite B1 in B2. injection B2 as <- <-. auto. Qed.

Lemma coeffs_last a X coeffs w st r st' z n : ia_weights a <> [] -> impedance_coeffs U a X coeffs w st = (Ok r, st') -> ir_z U r = Values z ->
  legal_prefilter (ia_prefilter a) -> legal_prefilter (ia_remote_prefilter a) ->
  (forall c x, nth_error coeffs c = Some x -> length x = n) ->
  exists e inputs given st1 l, last_stage U a X coeffs st e inputs given st1 /\
    stage U (ia_opts a) e inputs (ia_weights a) (ia_prefilter a) given st1 l st' /\ estimates l z /\
    ir_ivt U r = map (fun iv => if ia_keep a then invalid_times (run_windows X w) iv else []) (map snd l) /\
    (forall x, In x l -> StronglySorted Z.lt (snd x) /\ forall j, In j (snd x) -> (0 <= j < Z.of_nat n)%Z) /\
    forall m, given = PEach (repeat m (length e)) -> forall x j, In x l -> In j m -> In j (snd x).
Proof.
  intros Hw H Hz Lp Lrp Hn.
  destruct (coeffs_rejects U a X coeffs w st r st' z n Hw H Hz Lp Lrp Hn)
    as (e & b & br & T & be & iv1 & st1 & iv2 & l & ((es & E1 & E2) & (bs & B1 & B2) & R) & F & Hp & He & Hl & Hivt & Hx & _ & _ & C).
  exists e, be, iv1, st1, l.
  assert (Hlen : length e = length es) by (symmetry; exact (Forall2_len _ _ _ E2)).
  assert (S : stage U (ia_opts a) e be (ia_weights a) (ia_prefilter a) iv1 st1 l st') by (apply (stage_estimate U a); eauto).
  assert (Z0 : estimates l z).
  { unfold estimates. clear -Hl. induction Hl as [|x y l z Hxy _ IH]; [reflexivity|]. cbn [map]. rewrite Hxy, IH. reflexivity. }
  assert (Le : e <> []) by (apply apply_prefilter_spec in Hp as (He0 & _); exact He0).
  split; [|split; [exact S|split; [exact Z0|split; [exact Hivt|split; [exact Hx|]]]]].
  - exists es, bs, b. split; [exact E1|]. split; [exact E2|]. split; [exact B1|]. split; [exact B2|].
    destruct (remote_name a) as [rn|] eqn:Hr, br as [br|]; try contradiction.
    + right. destruct R as (rs & R1 & R2). destruct F as (iv0 & l1 & T' & F1 & F2 & F3 & -> & -> & ->).
      exists rn, rs, br, (remote_weights a), (remote_prefilter a), l1, T', (merged (map snd l1)).
      split; [apply with_remote_iff, Hr|]. split; [exact R1|]. split; [exact R2|].
      split; [apply list_or_remote; reflexivity|]. split; [apply or_else_remote; reflexivity|].
      split; [apply (stage_estimate U a); eauto|]. split; [eapply rows_of_estimates; exact F3|]. split; [apply rejected_merged; reflexivity|].
      rewrite Hlen. auto.
    + left. destruct F as (-> & -> & -> & ->). split; [apply no_remote_iff, Hr|]. auto.
  - intros m Hg x j Hin Hj. destruct br as [br|].
    + destruct F as (iv0 & l1 & T' & F1 & F2 & F3 & -> & -> & ->). destruct e as [|y e]; [congruence|].
      injection Hg as Hm _. subst m. apply merged_In in Hj as (iv & Hiv & Hj). apply in_map_iff in Hiv as (x1 & <- & Hx1).
      eapply (C iv0 l1 F1 F2); eassumption.
    + destruct F as (_ & _ & -> & _). discriminate.
Qed.

Lemma coeffs_times (O : OrdLaws (kA k)) (kone : K) tone cmul cdot calib cdiv (Nper ov : num (kA k)) (wd : window_arg (kE k)) a X f coeffs Nws Ls shs st r st' z :
  reach kone X -> ia_keep a = true -> ia_weights a <> [] -> legal_prefilter (ia_prefilter a) -> legal_prefilter (ia_remote_prefilter a) ->
  set_fourier tone cmul cdot calib cdiv X f Nper ov wd = Ok (coeffs, (Nws, Ls, shs)) ->
  impedance_coeffs U a X coeffs (Nws, Ls, shs) st = (Ok r, st') -> ir_z U r = Values z ->
  exists e inputs given st1 l, last_stage U a X coeffs st e inputs given st1 /\
    stage U (ia_opts a) e inputs (ia_weights a) (ia_prefilter a) given st1 l st' /\ estimates l z /\
    length (ir_ivt U r) = length l /\
    (forall c x, nth_error l c = Some x -> exists ts, nth_error (ir_ivt U r) c = Some ts /\ length ts = length (snd x) /\
      forall p i, nth_error (snd x) p = Some i -> exists run j s L sh,
        in_run Nws i run j /\ nth_error (ss_signals X) run = Some s /\ nth_error Ls run = Some L /\ nth_error shs run = Some sh /\
        nth_error ts p = Some (centre (s_rate s) (s_start s) L sh j)) /\
    forall m, given = PEach (repeat m (length e)) -> forall x j, In x l -> In j m -> In j (snd x).
Proof.
  intros R Hk Hw Lp Lrp Hf H Hz.
  pose proof (reach_wf kone O X R) as W. pose proof (set_fourier_spec _ _ _ _ _ X f Nper ov wd coeffs Nws Ls shs W Hf) as (_ & N1 & N2 & N3 & Hc).
  destruct (coeffs_last a X coeffs (Nws, Ls, shs) st r st' z (list_sum Nws) Hw H Hz Lp Lrp (fun c x Hx => proj1 (Hc c x Hx)))
    as (e & inputs & given & st1 & l & P & S & Z0 & Hivt & Hx & C).
  exists e, inputs, given, st1, l. split; [exact P|]. split; [exact S|]. split; [exact Z0|]. split; [rewrite Hivt, !map_length; reflexivity|]. split; [|exact C].
  intros c x Hcx. rewrite Hivt, Hk, map_map, nth_error_map, Hcx. simpl. eexists. split; [reflexivity|].
  destruct (Hx x (nth_error_In _ _ Hcx)) as [Hs Hr].
  destruct (invalid_times_spec (run_windows X (Nws, Ls, shs)) (snd x)) as [G1 G2]; [exact Hs|rewrite run_windows_counts by assumption; exact Hr|].
  split; [exact G1|]. intros p i Hp. destruct (G2 p i Hp) as (run & j & rate & start & Nw & Lw & shift & Q1 & Q2 & Q3).
  apply run_windows_nth in Q1 as (s & Q1 & -> & -> & _ & Q4 & Q5). rewrite run_windows_counts in Q2 by assumption.
  exists run, j, s, Lw, shift. auto 10.
Qed.

Lemma coeffs_carried (O : OrdLaws (kA k)) (kone : K) tone cmul cdot calib cdiv (Nper ov : num (kA k)) (wd : window_arg (kE k)) a X f coeffs Nws Ls shs st r st' z rn :
  reach kone X -> ia_keep a = true -> ia_weights a <> [] -> legal_prefilter (ia_prefilter a) -> legal_prefilter (ia_remote_prefilter a) ->
  set_fourier tone cmul cdot calib cdiv X f Nper ov wd = Ok (coeffs, (Nws, Ls, shs)) ->
  impedance_coeffs U a X coeffs (Nws, Ls, shs) st = (Ok r, st') -> ir_z U r = Values z -> with_remote (ia_remote a) rn ->
  exists bs b rs br ws pf l1 st1, t_get (ss_tags X) (ia_mag a) = Ok bs /\ columns coeffs bs b /\ t_get (ss_tags X) rn = Ok rs /\ columns coeffs rs br /\
    list_or (ia_remote_weights a) (ia_weights a) ws /\ or_else (ia_remote_prefilter a) (ia_prefilter a) pf /\
    stage U (ia_opts a) b br ws pf PNone st l1 st1 /\
    forall x i ts, In x l1 -> In i (snd x) -> In ts (ir_ivt U r) ->
    exists run j s L sh, in_run Nws i run j /\ nth_error (ss_signals X) run = Some s /\ nth_error Ls run = Some L /\ nth_error shs run = Some sh /\
      In (centre (s_rate s) (s_start s) L sh j) ts.
Proof.
  intros R Hk Hw Lp Lrp Hf H Hz Hrn.
  destruct (coeffs_times O kone tone cmul cdot calib cdiv Nper ov wd a X f coeffs Nws Ls shs st r st' z R Hk Hw Lp Lrp Hf H Hz)
    as (e & inputs & given & st1 & l & (es & bs & b & E1 & E2 & B1 & B2 & P) & S & Z0 & Hlen & Ht & C).
  destruct P as [(N & _)|(rn' & rs & br & ws & pf & l1 & T & m & Hrn' & R1 & R2 & W & Pf & S1 & T1 & M & -> & ->)].
  { exfalso. destruct Hrn as [Q1 Q2], N as [N|N]; rewrite N in Q1; congruence. }
  assert (rn' = rn) by (destruct Hrn as [Q1 _], Hrn' as [Q2 _]; congruence). subst rn'.
  exists bs, b, rs, br, ws, pf, l1, st1. do 7 (split; [assumption|]).
  intros x i ts Hx Hi Hts. apply In_nth_error in Hts as [c Hc].
  assert (Hcl : c < length l) by (rewrite <- Hlen; apply nth_error_Some; congruence).
  destruct (nth_error l c) as [y|] eqn:Hy; [|apply nth_error_None in Hy; lia].
  destruct (Ht c y Hy) as (ts' & Hc' & _ & G). rewrite Hc in Hc'. injection Hc' as <-.
  assert (Hiy : In i (snd y)).
  { apply (C m); [rewrite (Forall2_len _ _ _ E2); reflexivity|exact (nth_error_In _ _ Hy)|]. apply M. eauto. }
  apply In_nth_error in Hiy as [p Hp]. destruct (G p i Hp) as (run & j & s & L & sh & G1 & G2 & G3 & G4 & G5).
  exists run, j, s, L, sh. split; [exact G1|]. split; [exact G2|]. split; [exact G3|]. split; [exact G4|]. exact (nth_error_In _ _ G5).
Qed.

Lemma coeffs_not_kept a X coeffs w st r st' : ia_keep a = false -> impedance_coeffs U a X coeffs w st = (Ok r, st') -> forall ts, In ts (ir_ivt U r) -> ts = [].
Proof.
  intros Hk H ts Hin. apply coeffs_inv in H as (e & b & br & Hu & H).
  destruct H as [(_ & ->)|(T & be & iv1 & st1 & iv2 & l & z' & err & F & Hp & He & Hrow & _ & ->)]; [destruct Hin|].
  cbn [ir_ivt] in Hin. rewrite Hk in Hin. apply in_map_iff in Hin as (? & <- & _). reflexivity.
Qed.
End Rejects.
