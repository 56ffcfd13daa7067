(** Stacking of the results of all frequencies. *)
From Verif Require Import Base BaseLemmas Arith OrdLaws TagsModel SyncModel SetModel SpecSet SetProofs FourierModel MestModel UtilsModel SpecUtils UtilsProofs UtilsRun StageProofs FourierSet SpecMass.

Lemma stack_iff l : stack l = Ok tt <-> forall x y, In x l -> In y l -> x = y.
Proof.
  destruct l as [|[r c] l]; cbn [stack]; [split; [intros _ x y []|reflexivity]|]. unfold check.
  destruct (forallb (fun s => (fst s =? r) && (snd s =? c)) l) eqn:E.
  - split; [intros _|reflexivity]. rewrite forallb_forall in E.
    assert (G : forall x, In x ((r, c) :: l) -> x = (r, c)).
    { intros [r' c'] [<-|Hx]; [reflexivity|]. specialize (E _ Hx). cbn [fst snd] in E. apply andb_prop in E as [E1 E2].
      apply Nat.eqb_eq in E1, E2. congruence. }
    intros x y Hx Hy. rewrite (G x Hx), (G y Hy). reflexivity.
  - split; [intros [=]|]. intros H. exfalso. assert (E' : forallb (fun s => (fst s =? r) && (snd s =? c)) l = true).
    { apply forallb_forall. intros x Hx. rewrite (H x (r, c) (or_intror Hx) (or_introl eq_refl)). cbn [fst snd]. rewrite !Nat.eqb_refl. reflexivity. }
    congruence.
Qed.
Lemma stack_err l x : stack l = Err x -> x = ValueError.
Proof.
  destruct l as [|[r c] l]; cbn [stack]; [intros [=]|]. unfold check. destruct (forallb _ l); [intros [=]|]. intros [= <-]. reflexivity.
Qed.

Section Stack.
Context {k : Kern} (U : UK k) {V K St : Type}.
Notation A := (kA k).
Notation E := (kE k).
Variable fourier : @sigset A V K -> num A -> res (list (list E) * windows).
Variable bw : kB k -> nat.
Hypothesis HS : keep_shapes U bw.
Implicit Types (a : @iargs k St) (X : @sigset A V K) (st : St).

Lemma shaped_rows x r c : r <> 0 -> shaped (u_width k U) x r c -> arr_shape (rows_shape U) x = (r, c).
Proof.
  destruct x as [l|r' c']; cbn; [|intros _ [-> ->]; reflexivity]. intros Hr [<- F]. unfold rows_shape.
  destruct l as [|row l]; [cbn in Hr; congruence|]. inversion F; subst. reflexivity.
Qed.
Lemma shaped_err x r c : arr_shape (u_eshape k U) x = (r, c) <-> eshaped (u_eshape k U) x r c.
Proof. destruct x; cbn; [reflexivity|]. split; [intros [= -> ->]; auto|intros [-> ->]; reflexivity]. Qed.

Lemma one_shapes a X f s r s' es bs Nr : ia_weights a <> [] ->
  t_get (ss_tags X) (ia_elec a) = Ok es -> t_get (ss_tags X) (ia_mag a) = Ok bs ->
  match remote_name a with None => Nr = 0 | Some rn => exists rs, t_get (ss_tags X) rn = Ok rs /\ Nr = length rs end ->
  impedance_one U fourier a X f s = (Ok r, s') ->
  shaped (u_width k U) (ir_T U r) (length bs) Nr /\
  match fourier X f with
  | Ok _ => shaped (u_width k U) (ir_z U r) (length es) (length bs) /\ eshaped (u_eshape k U) (ir_err U r) (length es) (length bs) /\
            (length (ir_ivt U r) = length es \/ ir_ivt U r = [])
  | Err _ => ir_z U r = NaNs (length bs) (length es) /\ ir_err U r = NaNs (length bs) (length es) /\ ir_ivt U r = []
  end.
Proof.
  intros Hw He Hb Hr Ho. pose proof (one_inv U fourier a X f s r s' es bs Nr He Hb Hr Ho) as Hi.
  destruct (fourier X f) as [[coeffs w]|x].
  - pose proof (coeffs_inv U a X coeffs w s r s' Hi) as (e & b & br & Hu & _).
    destruct (coeffs_shape U bw HS a X coeffs w s r s' e b br Hw Hi Hu) as (S1 & S2 & S3 & S4).
    destruct Hu as ((es' & E1 & E2) & (bs' & B1 & B2) & R). rewrite He in E1. injection E1 as <-. rewrite Hb in B1. injection B1 as <-.
    apply Forall2_len in E2, B2.
    assert (ER : nrem br = Nr).
    { destruct (remote_name a) as [rn|], br as [br|]; try contradiction; [|symmetry; exact Hr].
      destruct Hr as (rs0 & Hr & ->), R as (rs1 & R1 & R2). rewrite Hr in R1. injection R1 as <-. apply Forall2_len in R2. simpl. congruence. }
    rewrite ER in S2. rewrite E2, B2. split; [exact S2|]. split; [exact S1|]. split; [apply shaped_err, S3|]. destruct (ir_z U r); auto.
  - destruct Hi as [-> _]. simpl. auto.
Qed.

Lemma one_shape_dec X l (Ne Nb : nat) : one_shape (fourier X) l Ne Nb \/
  (Ne <> Nb /\ exists f g x y, In f l /\ In g l /\ fourier X f = Ok x /\ fourier X g = Err y).
Proof.
  unfold one_shape. destruct (Nat.eq_dec Ne Nb) as [D|D]; [auto|].
  assert (G : (forall f, In f l -> exists x, fourier X f = Ok x) \/ exists g y, In g l /\ fourier X g = Err y).
  { clear. induction l as [|f l IH]; [left; intros f []|]. destruct (fourier X f) as [x|y] eqn:Ef.
    - destruct IH as [IH|(g & y & Hg & Eg)]; [left; intros f' [<-|H]; eauto|]. right. exists g, y. split; [right; exact Hg|exact Eg].
    - right. exists f, y. split; [left; reflexivity|exact Ef]. }
  assert (G' : (forall f, In f l -> exists x, fourier X f = Err x) \/ exists g y, In g l /\ fourier X g = Ok y).
  { clear. induction l as [|f l IH]; [left; intros f []|]. destruct (fourier X f) as [x|y] eqn:Ef.
    - right. exists f, x. split; [left; reflexivity|exact Ef].
    - destruct IH as [IH|(g & x & Hg & Eg)]; [left; intros f' [<-|H]; eauto|]. right. exists g, x. split; [right; exact Hg|exact Eg]. }
  destruct G as [G|(g & y & Hg & Eg)]; [left; auto|]. destruct G' as [G'|(f & x & Hf & Ef)]; [left; auto|].
  right. split; [exact D|]. exists f, g, x, y. auto.
Qed.

Lemma stacked a X l_freq st es bs Nr rs st' : ia_weights a <> [] -> es <> [] -> bs <> [] ->
  t_get (ss_tags X) (ia_elec a) = Ok es -> t_get (ss_tags X) (ia_mag a) = Ok bs ->
  match remote_name a with None => Nr = 0 | Some rn => exists rs, t_get (ss_tags X) rn = Ok rs /\ Nr = length rs end ->
  impedance_results U fourier a X l_freq st = (Ok rs, st') ->
  (one_shape (fourier X) l_freq (length es) (length bs) -> impedance U fourier a X l_freq st = (Ok rs, st')) /\
  (~ one_shape (fourier X) l_freq (length es) (length bs) -> impedance U fourier a X l_freq st = (Err ValueError, st')).
Proof.
  intros Hw Hes Hbs He Hb Hr H. pose proof (results_each U fourier a X l_freq st rs st' H) as F.
  assert (Ne : length es <> 0) by (destruct es; cbn; congruence). assert (Nb : length bs <> 0) by (destruct bs; cbn; congruence).
  assert (Q : forall r, In r rs -> exists f, In f l_freq /\ arr_shape (rows_shape U) (ir_T U r) = (length bs, Nr) /\
    arr_shape (rows_shape U) (ir_z U r) = (match fourier X f with Ok _ => (length es, length bs) | Err _ => (length bs, length es) end) /\
    arr_shape (u_eshape k U) (ir_err U r) = (match fourier X f with Ok _ => (length es, length bs) | Err _ => (length bs, length es) end)).
  { intros r Hin. apply In_nth_error in Hin as [n Hn]. destruct (Forall2_nth_error_r _ _ _ _ _ F Hn) as (f & Hf & s & s' & Ho).
    exists f. split; [eapply nth_error_In, Hf|]. destruct (one_shapes a X f s r s' es bs Nr Hw He Hb Hr Ho) as [S1 S2].
    split; [apply shaped_rows; assumption|]. destruct (fourier X f) as [x|x].
    - destruct S2 as (S2 & S3 & _). split; [apply shaped_rows; assumption|apply shaped_err, S3].
    - destruct S2 as (-> & -> & _). split; reflexivity. }
  split; intros C; unfold impedance; rewrite H; cbn [bind].
  - assert (Q' : exists rc, forall r, In r rs -> arr_shape (rows_shape U) (ir_z U r) = rc /\ arr_shape (u_eshape k U) (ir_err U r) = rc).
    { destruct C as [C|[C|C]].
      - exists (length es, length bs). intros r Hin. destruct (Q r Hin) as (f & _ & _ & -> & ->). rewrite C. destruct (fourier X f); auto.
      - exists (length es, length bs). intros r Hin. destruct (Q r Hin) as (f & Hf & _ & -> & ->). destruct (C f Hf) as (x & ->). auto.
      - exists (length bs, length es). intros r Hin. destruct (Q r Hin) as (f & Hf & _ & -> & ->). destruct (C f Hf) as (x & ->). auto. }
    destruct Q' as (rc & Q').
    assert (G : forall (g : ires U -> nat * nat) c, (forall r, In r rs -> g r = c) -> stack (map g rs) = Ok tt).
    { intros g c Hg. apply stack_iff. intros x y Hx Hy. apply in_map_iff in Hx as (r1 & <- & H1), Hy as (r2 & <- & H2).
      rewrite (Hg r1 H1), (Hg r2 H2). reflexivity. }
    rewrite (G _ rc) by (intros r Hin; apply Q', Hin). cbn [bind]. rewrite (G _ rc) by (intros r Hin; apply Q', Hin). cbn [bind].
    rewrite (G _ (length bs, Nr)) by (intros r Hin; destruct (Q r Hin) as (f & _ & -> & _); reflexivity). reflexivity.
  - destruct (one_shape_dec X l_freq (length es) (length bs)) as [D|(D & f & g & x & y & Hf & Hg & Ef & Eg)]; [contradiction|].
    destruct (stack (map (fun r => arr_shape (rows_shape U) (ir_z U r)) rs)) as [[]|e] eqn:Es; cbn [bind].
    + exfalso. rewrite stack_iff in Es.
      assert (P : forall h, In h l_freq -> exists r, In r rs /\ arr_shape (rows_shape U) (ir_z U r) = (match fourier X h with Ok _ => (length es, length bs) | Err _ => (length bs, length es) end)).
      { intros h Hh. apply In_nth_error in Hh as [n Hn]. destruct (Forall2_nth_error _ _ _ _ _ F Hn) as (r & Hr' & s & s' & Ho). exists r.
        split; [eapply nth_error_In, Hr'|]. destruct (one_shapes a X h s r s' es bs Nr Hw He Hb Hr Ho) as [_ S2]. destruct (fourier X h) as [z|z].
        - destruct S2 as (S2 & _). apply shaped_rows; assumption.
        - destruct S2 as (-> & _). reflexivity. }
      destruct (P f Hf) as (r1 & R1 & P1), (P g Hg) as (r2 & R2 & P2). rewrite Ef in P1. rewrite Eg in P2.
      specialize (Es _ _ (in_map _ _ _ R1) (in_map _ _ _ R2)). cbv beta in Es. rewrite P1, P2 in Es. congruence.
    + rewrite (stack_err _ _ Es). reflexivity.
Qed.

Lemma results_turn a X l_freq : forall st r st', impedance_results U fourier a X l_freq st = (r, st') <->
  in_turn (fun f s x s' => impedance_one U fourier a X f s = (x, s')) l_freq st r st'.
Proof.
  induction l_freq as [|f l IH]; intros st r st'; cbn [impedance_results].
  - split; [intros [= <- <-]; constructor|]. inversion 1; subst. reflexivity.
  - destruct (impedance_one U fourier a X f st) as [[x|x] s1] eqn:E1.
    + destruct (impedance_results U fourier a X l s1) as [[xs|e] s2] eqn:E2; cbn [bind].
      * split.
        -- intros [= <- <-]. eapply it_ok; [exact E1|]. apply IH, E2.
        -- inversion 1; subst; try congruence; match goal with H1 : impedance_one U fourier a X f st = _ |- _ => rewrite E1 in H1; injection H1 as <- <- end;
           match goal with H2 : in_turn _ l _ _ _ |- _ => apply IH in H2; rewrite E2 in H2; congruence end.
      * split.
        -- intros [= <- <-]. eapply it_later; [exact E1|]. apply IH, E2.
        -- inversion 1; subst; try congruence; match goal with H1 : impedance_one U fourier a X f st = _ |- _ => rewrite E1 in H1; injection H1 as <- <- end;
           match goal with H2 : in_turn _ l _ _ _ |- _ => apply IH in H2; rewrite E2 in H2; congruence end.
    + split; [intros [= <- <-]; apply it_fails; exact E1|]. inversion 1; subst; congruence.
Qed.

Lemma impedance_err a X l_freq st st' x : impedance_results U fourier a X l_freq st = (Err x, st') -> impedance U fourier a X l_freq st = (Err x, st').
Proof. unfold impedance. intros ->. reflexivity. Qed.

Lemma impedance_outcome a X l_freq st es bs Nr r st' : ia_weights a <> [] -> es <> [] -> bs <> [] ->
  t_get (ss_tags X) (ia_elec a) = Ok es -> t_get (ss_tags X) (ia_mag a) = Ok bs ->
  match remote_name a with None => Nr = 0 | Some rn => exists rs, t_get (ss_tags X) rn = Ok rs /\ Nr = length rs end ->
  impedance U fourier a X l_freq st = (r, st') <->
  exists q, in_turn (fun f s x s' => impedance_one U fourier a X f s = (x, s')) l_freq st q st' /\
    match q with
    | Err e => r = Err e
    | Ok rs => (one_shape (fourier X) l_freq (length es) (length bs) /\ r = Ok rs) \/
               (~ one_shape (fourier X) l_freq (length es) (length bs) /\ r = Err ValueError)
    end.
Proof.
  intros Hw Hes Hbs He Hb Hr.
  assert (D : one_shape (fourier X) l_freq (length es) (length bs) \/ ~ one_shape (fourier X) l_freq (length es) (length bs)).
  { destruct (one_shape_dec X l_freq (length es) (length bs)) as [D|(D & f & g & x & y & Hf & Hg & Ef & Eg)]; [auto|]. right.
    intros [C|[C|C]]; [contradiction| |]; [destruct (C g Hg)|destruct (C f Hf)]; congruence. }
  split.
  - intros H. destruct (impedance_results U fourier a X l_freq st) as [q s] eqn:E.
    assert (s = st') as ->. { unfold impedance in H. rewrite E in H. congruence. }
    exists q. split; [apply results_turn, E|]. destruct q as [rs|e]; [|apply impedance_err in E; congruence].
    destruct (stacked a X l_freq st es bs Nr rs st' Hw Hes Hbs He Hb Hr E) as [S1 S2]. destruct D as [D|D]; [left|right]; (split; [exact D|]).
    + specialize (S1 D). congruence.
    + specialize (S2 D). congruence.
  - intros (q & Hq & Hm). apply results_turn in Hq. destruct q as [rs|e]; [|subst r; apply impedance_err, Hq].
    destruct (stacked a X l_freq st es bs Nr rs st' Hw Hes Hbs He Hb Hr Hq) as [S1 S2]. destruct Hm as [[C ->]|[C ->]]; auto.
Qed.
End Stack.

Lemma silent_outcome : forall (k : Kern) (O : OrdLaws (kA k)) (U : UK k) (V K St : Type) (kone : K) tone cmul cdot calib cdiv
    (Nper ov : num (kA k)) (wd : window_arg (kE k)) (bw : kB k -> nat) (a : @iargs k St) (X : @sigset (kA k) V K) l_freq st es bs,
  keep_shapes U bw -> errors_exist U ->
  reach kone X -> ia_silent a = true -> ia_weights a <> [] ->
  total_prefilter (ia_prefilter a) -> total_prefilter (ia_remote_prefilter a) ->
  t_get (ss_tags X) (ia_elec a) = Ok es -> t_get (ss_tags X) (ia_mag a) = Ok bs ->
  (forall rn, with_remote (ia_remote a) rn -> exists rs, t_get (ss_tags X) rn = Ok rs) ->
  let fourier X f := set_fourier tone cmul cdot calib cdiv X f Nper ov wd in
  exists r st', impedance U fourier a X l_freq st = (r, st') /\
    (one_shape (fourier X) l_freq (length es) (length bs) -> exists rs, r = Ok rs) /\
    (~ one_shape (fourier X) l_freq (length es) (length bs) -> r = Err ValueError).
Proof.
  intros k O U V K St kone tone cmul cdot calib cdiv Nper ov wd bw a X l_freq st es bs H1 Her R Hs Hw Hp Hrp He Hb Hr0 fourier.
  assert (Hr : forall rn, remote_name a = Some rn -> exists rs, t_get (ss_tags X) rn = Ok rs) by (intros rn N; apply Hr0, with_remote_iff, N). clear Hr0.
  pose proof (reach_wf kone O X R) as W.
  assert (V0 : forall t l, t_get (ss_tags X) t = Ok l -> l <> [] /\ forall c, In c l -> c < t_n (ss_tags X)).
  { intros t l Ht. unfold t_get in Ht. apply of_option_ok, dget_In in Ht. destruct (ws_tags _ W) as [_ T2 T3 _].
    split; [eapply T2; exact Ht|]. intros c Hc. eapply T3; [exact Ht|exact Hc]. }
  assert (Tot : exists rs st', impedance_results U fourier a X l_freq st = (Ok rs, st')).
  { apply results_total. intros f s _. rewrite (one_eq U fourier a X f s es bs He Hb Hr). unfold fourier.
    destruct (set_fourier tone cmul cdot calib cdiv X f Nper ov wd) as [[coeffs [[Nws Ls] shs]]|x] eqn:Ef; [|eauto].
    assert (Hne : ss_signals X <> []) by (intros En; rewrite set_fourier_empty in Ef by exact En; discriminate).
    pose proof (set_fourier_spec _ _ _ _ _ X f Nper ov wd coeffs Nws Ls shs W Ef) as (Hlc & _).
    assert (Hn : t_n (ss_tags X) = length coeffs).
    { rewrite Hlc. unfold nb_channels, nb_channels_of. destruct (ss_signals X) as [|s0 sg] eqn:Es; [congruence|]. symmetry. apply (ws_chan _ W). rewrite Es. left. reflexivity. }
    apply (coeffs_silent U a X coeffs (Nws, Ls, shs) s es bs Hs Hw Hp Hrp Her He Hb).
    - apply (V0 _ _ He).
    - apply (V0 _ _ Hb).
    - intros c Hc. rewrite <- Hn. apply in_app_or in Hc as [Hc|Hc]; [eapply V0; [exact He|exact Hc]|eapply V0; [exact Hb|exact Hc]].
    - intros rn Hrn. destruct (Hr rn Hrn) as (rs & Hrs). exists rs. split; [exact Hrs|]. intros c Hc. rewrite <- Hn. eapply V0; [exact Hrs|exact Hc]. }
  destruct Tot as (rs & st' & Hrs).
  assert (HN : exists Nr, match remote_name a with None => Nr = 0 | Some rn => exists rs, t_get (ss_tags X) rn = Ok rs /\ Nr = length rs end).
  { destruct (remote_name a) as [rn|] eqn:En; [|eauto]. destruct (Hr rn eq_refl) as (l & Hl). eauto. }
  destruct HN as (Nr & HN).
  destruct (stacked U fourier bw H1 a X l_freq st es bs Nr rs st' Hw (proj1 (V0 _ _ He)) (proj1 (V0 _ _ Hb)) He Hb HN Hrs) as [S1 S2].
  destruct (one_shape_dec fourier X l_freq (length es) (length bs)) as [D|(D & f & g & x & y & Hf & Hg & Ef & Eg)].
  - exists (Ok rs), st'. split; [apply S1, D|]. split; [eauto|contradiction].
  - assert (C : ~ one_shape (fourier X) l_freq (length es) (length bs)) by (intros [C|[C|C]]; [contradiction|destruct (C g Hg)|destruct (C f Hf)]; congruence).
    exists (Err ValueError), st'. split; [apply S2, C|]. split; [contradiction|reflexivity].
Qed.

Lemma tag_sizes {A : Arith} (O : OrdLaws A) {V K} (kone : K) (X : @sigset A V K) t l : reach kone X -> t_get (ss_tags X) t = Ok l -> l <> [].
Proof.
  intros R Ht. pose proof (reach_wf kone O X R) as W. unfold t_get in Ht. apply of_option_ok, dget_In in Ht. destruct (ws_tags _ W) as [_ T2 _ _]. eapply T2; exact Ht.
Qed.
Lemma remote_count {A : Arith} {V K} {k : Kern} {St} (a : @iargs k St) (X : @sigset A V K) :
  (forall rn, with_remote (ia_remote a) rn -> exists l, t_get (ss_tags X) rn = Ok l) ->
  exists Nr, match remote_name a with None => Nr = 0 | Some rn => exists rs, t_get (ss_tags X) rn = Ok rs /\ Nr = length rs end.
Proof.
  intros H. destruct (remote_name a) as [rn|] eqn:E; [|eauto]. destruct (H rn) as (l & Hl); [apply with_remote_iff, E|]. eauto.
Qed.

Lemma outcome_reach : forall (k : Kern) (O : OrdLaws (kA k)) (U : UK k) (V K St : Type) (kone : K)
    (fourier : @sigset (kA k) V K -> num (kA k) -> res (list (list (kE k)) * windows)) (bw : kB k -> nat) (a : @iargs k St) X l_freq st es bs r st',
  keep_shapes U bw ->
  reach kone X -> ia_weights a <> [] ->
  t_get (ss_tags X) (ia_elec a) = Ok es -> t_get (ss_tags X) (ia_mag a) = Ok bs ->
  (forall rn, with_remote (ia_remote a) rn -> exists l, t_get (ss_tags X) rn = Ok l) ->
  impedance U fourier a X l_freq st = (r, st') <->
  exists q, in_turn (fun f s x s' => impedance_one U fourier a X f s = (x, s')) l_freq st q st' /\
    match q with
    | Err e => r = Err e
    | Ok rs => (one_shape (fourier X) l_freq (length es) (length bs) /\ r = Ok rs) \/
               (~ one_shape (fourier X) l_freq (length es) (length bs) /\ r = Err ValueError)
    end.
Proof.
  intros k O U V K St kone fourier bw a X l_freq st es bs r st' H1 R Hw He Hb Hr. destruct (remote_count a X Hr) as (Nr & HN).
  exact (impedance_outcome U fourier bw H1 a X l_freq st es bs Nr r st' Hw (tag_sizes O kone X _ _ R He) (tag_sizes O kone X _ _ R Hb) He Hb HN).
Qed.

Lemma array_reach : forall (k : Kern) (O : OrdLaws (kA k)) (U : UK k) (V K St : Type) (kone : K)
    (fourier : @sigset (kA k) V K -> num (kA k) -> res (list (list (kE k)) * windows)) (bw : kB k -> nat) (a : @iargs k St) X l_freq st es bs rs st',
  keep_shapes U bw ->
  reach kone X -> ia_weights a <> [] ->
  t_get (ss_tags X) (ia_elec a) = Ok es -> t_get (ss_tags X) (ia_mag a) = Ok bs ->
  (forall rn, with_remote (ia_remote a) rn -> exists l, t_get (ss_tags X) rn = Ok l) ->
  impedance U fourier a X l_freq st = (Ok rs, st') ->
  length rs = length l_freq /\
  exists Nr n m, (n = length es /\ m = length bs \/ n = length bs /\ m = length es /\ forall f, In f l_freq -> exists x, fourier X f = Err x) /\
    forall r, In r rs -> shaped (u_width k U) (ir_z U r) n m /\ eshaped (u_eshape k U) (ir_err U r) n m /\ shaped (u_width k U) (ir_T U r) (length bs) Nr.
Proof.
  intros k O U V K St kone fourier bw a X l_freq st es bs rs st' H1 R Hw He Hb Hr H. destruct (remote_count a X Hr) as (Nr & HN).
  pose proof (impedance_each U fourier a X l_freq st rs st' H) as F. split; [symmetry; eapply Forall2_len, F|].
  pose proof (tag_sizes O kone X _ _ R He) as Ne. pose proof (tag_sizes O kone X _ _ R Hb) as Nb.
  apply (impedance_outcome U fourier bw H1 a X l_freq st es bs Nr (Ok rs) st' Hw Ne Nb He Hb HN) in H as (q & _ & Hq).
  assert (C : one_shape (fourier X) l_freq (length es) (length bs)) by (destruct q; [destruct Hq as [[C _]|[_ [=]]]; exact C|discriminate Hq]). clear q Hq.
  assert (Q : forall r, In r rs -> exists f, In f l_freq /\ shaped (u_width k U) (ir_T U r) (length bs) Nr /\
    match fourier X f with
    | Ok _ => shaped (u_width k U) (ir_z U r) (length es) (length bs) /\ eshaped (u_eshape k U) (ir_err U r) (length es) (length bs)
    | Err _ => ir_z U r = NaNs (length bs) (length es) /\ ir_err U r = NaNs (length bs) (length es)
    end).
  { intros r Hin. apply In_nth_error in Hin as [n Hn]. destruct (Forall2_nth_error_r _ _ _ _ _ F Hn) as (f & Hf & s & s' & Ho).
    exists f. split; [eapply nth_error_In, Hf|]. destruct (one_shapes U fourier bw H1 a X f s r s' es bs Nr Hw He Hb HN Ho) as [S1 S2].
    split; [exact S1|]. destruct (fourier X f); destruct S2 as (S2 & S3 & _); auto. }
  destruct C as [C|[C|C]].
  - exists Nr, (length es), (length bs). split; [auto|]. intros r Hin. destruct (Q r Hin) as (f & _ & S1 & S2). destruct (fourier X f); destruct S2 as [S2 S3].
    + auto.
    + rewrite S2, S3. cbn. auto.
  - exists Nr, (length es), (length bs). split; [auto|]. intros r Hin. destruct (Q r Hin) as (f & Hf & S1 & S2). destruct (C f Hf) as (x & Ex). rewrite Ex in S2. destruct S2; auto.
  - exists Nr, (length bs), (length es). split; [auto|]. intros r Hin. destruct (Q r Hin) as (f & Hf & S1 & S2). destruct (C f Hf) as (x & Ex). rewrite Ex in S2. destruct S2 as [-> ->]. cbn. auto.
Qed.
