(** What an estimate of one frequency goes through (C56-C60). *)
From Verif Require Import Base BaseLemmas Arith TagsModel SyncModel SetModel FourierModel MestModel SpecMest MestProofs MestRun UtilsModel SpecUtils UtilsProofs.

Section Imp.
Context {k : Kern} (U : UK k) {V K St : Type}.
Notation A := (kA k).
Notation E := (kE k).
Implicit Types (a : @iargs k St) (X : @sigset A V K) (coeffs : list (list E)) (st : St).

(** the columns of the coefficients that an estimate uses *)
Definition uses a X coeffs (e b : list (list E)) (br : option (list (list E))) : Prop :=
  (exists es, t_get (ss_tags X) (ia_elec a) = Ok es /\ columns coeffs es e) /\
  (exists bs, t_get (ss_tags X) (ia_mag a) = Ok bs /\ columns coeffs bs b) /\
  match remote_name a, br with
  | None, None => True
  | Some r, Some br => exists rs, t_get (ss_tags X) r = Ok rs /\ columns coeffs rs br
  | _, _ => False
  end.

Definition nrem (br : option (list (list E))) : nat := match br with Some l => length l | None => 0 end.
Definition failed (e b : list (list E)) (br : option (list (list E))) : ires U :=
  mkIres U (NaNs (length e) (length b)) [] (NaNs (length e) (length b)) (NaNs (length b) (nrem br)).

(** the first stage succeeds *)
Definition first_stage a (e b : list (list E)) (br : option (list (list E))) st (T : option (list (kZ k))) (be : list (list E)) (iv1 : pidx) st' : Prop :=
  match br with
  | None => T = None /\ be = b /\ iv1 = PNone /\ st' = st
  | Some br => exists iv0 l T', apply_prefilter U b br (remote_prefilter a) PNone = Ok iv0 /\
      estimate U a b br (remote_weights a) iv0 st = (Ok l, st') /\ rows_of ValueError (map fst l) = Ok T' /\
      T = Some T' /\ be = u_dot k U T' br /\ iv1 = PEach (repeat (merged (map snd l)) (length e))
  end.

Definition T_of (b : list (list E)) (T : option (list (kZ k))) : arr (list (kZ k)) := match T with Some T => Values T | None => NaNs (length b) 0 end.

Lemma coeffs_inv a X coeffs w st r st' : impedance_coeffs U a X coeffs w st = (Ok r, st') ->
  exists e b br, uses a X coeffs e b br /\
  ((ia_silent a = true /\ r = failed e b br) \/
   exists T be iv1 st1 iv2 l z err, first_stage a e b br st T be iv1 st1 /\
     apply_prefilter U e be (ia_prefilter a) iv1 = Ok iv2 /\
     estimate U a e be (ia_weights a) iv2 st1 = (Ok l, st') /\
     rows_of IndexError (map fst l) = Ok z /\ u_error k U e be z (map snd l) = Ok err /\
     r = mkIres U (Values z) (map (fun iv => if ia_keep a then invalid_times (run_windows X w) iv else []) (map snd l)) (Values err) (T_of b T)).
Proof.
  unfold impedance_coeffs. cbv zeta.
  destruct (bind (bind (t_get (ss_tags X) (ia_elec a)) _) _) as [[[e b] br]|x] eqn:E; [|discriminate].
  apply bind_ok in E as (e' & Ee & E). apply bind_ok in E as (b' & Eb & E). apply bind_ok in E as (br' & Er & [= -> -> ->]).
  apply bind_ok in Ee as (es & Ees & Ee). apply bind_ok in Eb as (bs & Ebs & Eb). apply columns_mapM in Ee, Eb.
  intros H. exists e, b, br. split.
  { split; [eauto|]. split; [eauto|]. destruct (remote_name a) as [rn|].
    - apply bind_ok in Er as (x & Er & [= <-]). apply bind_ok in Er as (rs & Ers & Er). apply columns_mapM in Er. eauto.
    - injection Er as <-. exact I. }
  destruct (stage1 U a b br (length e) st) as [s1 st1] eqn:Es.
  assert (S1 : (ia_silent a = true /\ s1 = Ok None) \/ (exists x, s1 = Err x) \/
    exists T be iv1, s1 = Ok (Some (T, be, iv1)) /\ first_stage a e b br st T be iv1 st1).
  { unfold stage1 in Es. destruct br as [br|].
    - destruct (apply_prefilter U b br (remote_prefilter a) PNone) as [iv0|x] eqn:Ep; [|injection Es as <- <-; eauto].
      destruct (estimate U a b br (remote_weights a) iv0 st) as [[l|x] st2] eqn:Et.
      + injection Es as <- <-. destruct (rows_of ValueError (map fst l)) as [T|x] eqn:ET; simpl; [|eauto].
        right. right. do 3 eexists. split; [reflexivity|]. exists iv0, l, T. auto 10.
      + injection Es as <- <-. destruct (ia_silent a); [auto|eauto].
    - injection Es as <- <-. right. right. do 3 eexists. split; [reflexivity|]. simpl. auto. }
  destruct S1 as [(Hsil & ->)|[(x & ->)|(T & be & iv1 & -> & F)]]; [|discriminate|].
  - left. injection H as <- _. auto.
  - destruct (apply_prefilter U e be (ia_prefilter a) iv1) as [iv2|x] eqn:Ep; [|discriminate].
    destruct (estimate U a e be (ia_weights a) iv2 st1) as [[l|x] st2] eqn:Et.
    + right. injection H as H <-. apply bind_ok in H as (z & Hz & H). apply bind_ok in H as (err & He & [= <-]).
      exists T, be, iv1, st1, iv2, l, z, err. do 5 (split; [assumption|]). f_equal.
      destruct (ia_keep a); reflexivity.
    + left. destruct (ia_silent a); [|discriminate]. injection H as <- _. auto.
Qed.

(** ** Nothing raises under silent_fail *)
Lemma uses_exists a X coeffs es bs : t_get (ss_tags X) (ia_elec a) = Ok es -> t_get (ss_tags X) (ia_mag a) = Ok bs ->
  (forall c, In c (es ++ bs) -> c < length coeffs) ->
  (forall rn, remote_name a = Some rn -> exists rs, t_get (ss_tags X) rn = Ok rs /\ forall c, In c rs -> c < length coeffs) ->
  exists e b br, bind (bind (t_get (ss_tags X) (ia_elec a)) (fun idx => mapM (fun i => nth_res coeffs i) idx)) (fun e =>
    bind (bind (t_get (ss_tags X) (ia_mag a)) (fun idx => mapM (fun i => nth_res coeffs i) idx)) (fun b =>
    bind (match remote_name a with None => Ok None | Some r => bind (bind (t_get (ss_tags X) r) (fun idx => mapM (fun i => nth_res coeffs i) idx)) (fun x => Ok (Some x)) end)
      (fun br => Ok (e, b, br)))) = Ok (e, b, br) /\ length e = length es /\ length b = length bs.
Proof.
  intros He Hb Hc Hr.
  assert (P : forall idx, (forall c, In c idx -> c < length coeffs) -> exists l, mapM (fun i => nth_res coeffs i) idx = Ok l).
  { intros idx H. apply mapM_ok_exists. intros c Hin. apply H in Hin. unfold nth_res. apply nth_error_Some in Hin.
    destruct (nth_error coeffs c); [eexists; reflexivity|congruence]. }
  destruct (P es) as (e & Ee); [intros c Hin; apply Hc, in_or_app; auto|].
  destruct (P bs) as (b & Eb); [intros c Hin; apply Hc, in_or_app; auto|].
  rewrite He, Hb. cbn [bind]. rewrite Ee, Eb. cbn [bind].
  destruct (remote_name a) as [rn|].
  - destruct (Hr rn eq_refl) as (rs & Hrs & Hrc). destruct (P rs Hrc) as (x & Ex). rewrite Hrs. cbn [bind]. rewrite Ex. cbn [bind].
    exists e, b, (Some x). split; [reflexivity|]. split; eapply mapM_length; eassumption.
  - exists e, b, None. split; [reflexivity|]. split; eapply mapM_length; eassumption.
Qed.

Lemma estimate_rows a outs ins ws iv st l st' x : ws <> [] -> estimate U a outs ins ws iv st = (Ok l, st') -> exists z, rows_of x (map fst l) = Ok z.
Proof.
  intros Hw. unfold estimate. destruct (ia_real_pb a); [discriminate|]. intros H. apply transfer_function_solved in H as (_ & _ & H).
  specialize (H Hw). apply mapM_ok_exists. intros oz Hin. apply in_map_iff in Hin as (r & <- & Hr). rewrite Forall_forall in H.
  destruct (H r Hr) as (z & -> & _). simpl. eauto.
Qed.

Lemma remote_weights_ne a : ia_weights a <> [] -> remote_weights a <> [].
Proof. unfold remote_weights. destruct (ia_remote_weights a) as [[|w ws]|]; auto; discriminate. Qed.

Lemma rows_of_spec x (l : list (option (kZ k) * list Z)) z : rows_of x (map fst l) = Ok z -> Forall2 (fun r y => fst r = Some y) l z.
Proof.
  unfold rows_of. rewrite mapM_map, mapM_Forall2. intros H. eapply Forall2_impl; [|exact H]. intros r y. apply of_option_ok.
Qed.

Lemma estimate_solved a outs ins ws iv st l st' x z : ws <> [] -> estimate U a outs ins ws iv st = (Ok l, st') ->
  rows_of x (map fst l) = Ok z -> length z = length outs /\ length (map snd l) = length outs /\ Forall (solved (k := k) (u_rows k U ins)) z.
Proof.
  intros Hw He Hz. unfold estimate in He. destruct (ia_real_pb a); [discriminate|]. apply transfer_function_solved in He as (Hl & _ & H).
  specialize (H Hw). apply rows_of_spec in Hz. split; [rewrite <- (Forall2_len _ _ _ Hz); exact Hl|]. split; [rewrite map_length; exact Hl|].
  apply Forall_forall. intros y Hy. apply In_nth_error in Hy as [n Hn]. destruct (Forall2_nth_error_r _ _ _ _ _ Hz Hn) as (r & Hr & Er).
  rewrite Forall_forall in H. destruct (H r (nth_error_In _ _ Hr)) as (z' & Ez & Hs). rewrite Ez in Er. injection Er as ->. exact Hs.
Qed.

Lemma coeffs_silent a X coeffs w st es bs :
  ia_silent a = true -> ia_weights a <> [] -> total_prefilter (ia_prefilter a) -> total_prefilter (ia_remote_prefilter a) ->
  errors_exist U ->
  t_get (ss_tags X) (ia_elec a) = Ok es -> t_get (ss_tags X) (ia_mag a) = Ok bs -> es <> [] -> bs <> [] ->
  (forall c, In c (es ++ bs) -> c < length coeffs) ->
  (forall rn, remote_name a = Some rn -> exists rs, t_get (ss_tags X) rn = Ok rs /\ forall c, In c rs -> c < length coeffs) ->
  exists r st', impedance_coeffs U a X coeffs w st = (Ok r, st').
Proof.
  intros Hsil Hw Hp Hrp Herr He Hb Hne Hnb Hc Hr.
  destruct (uses_exists a X coeffs es bs He Hb Hc Hr) as (e & b & br & Eu & Le & Lb).
  unfold impedance_coeffs. cbv zeta. rewrite Eu.
  assert (Hene : e <> []) by (destruct e, es; simpl in *; congruence || discriminate).
  assert (Hbne : b <> []) by (destruct b, bs; simpl in *; congruence || discriminate).
  assert (Tot : forall pf, total_prefilter pf -> forall (outs ins : list (list E)) f line, pf = Some f -> In line outs -> exists l, f line (u_rows k U ins) = Ok l).
  { intros pf Hpf outs ins f line -> _. apply Hpf. }
  assert (Hrp' : total_prefilter (remote_prefilter a)) by (unfold remote_prefilter; destruct (ia_remote_prefilter a); assumption).
  assert (S1 : exists s1 st1, stage1 U a b br (length e) st = (Ok s1, st1) /\ forall T be iv1, s1 = Some (T, be, iv1) -> pfits iv1 (length e)).
  { unfold stage1. destruct br as [br|].
    - destruct (apply_prefilter_ok U b br (remote_prefilter a) PNone Hbne I (Tot _ Hrp' b br)) as (iv0 & ->).
      destruct (estimate U a b br (remote_weights a) iv0 st) as [[l|x] st2] eqn:Et.
      + destruct (estimate_rows _ _ _ _ _ _ _ _ ValueError (remote_weights_ne a Hw) Et) as (T & ->). simpl. do 2 eexists. split; [reflexivity|].
        intros T' be iv1 [= _ _ <-]. destruct e as [|y e]; [congruence|]. simpl. rewrite repeat_length. reflexivity.
      + rewrite Hsil. do 2 eexists. split; [reflexivity|]. intros; discriminate.
    - do 2 eexists. split; [reflexivity|]. intros T be iv1 [= _ _ <-]. exact I. }
  destruct S1 as (s1 & st1 & -> & Hf). destruct s1 as [[[T be] iv1]|]; [|eauto].
  destruct (apply_prefilter_ok U e be (ia_prefilter a) iv1 Hene (Hf _ _ _ eq_refl) (Tot _ Hp e be)) as (iv2 & ->).
  destruct (estimate U a e be (ia_weights a) iv2 st1) as [[l|x] st2] eqn:Et; [|rewrite Hsil; eauto].
  destruct (estimate_rows _ _ _ _ _ _ _ _ IndexError Hw Et) as (z & Ez). rewrite Ez. simpl.
  destruct (estimate_solved _ _ _ _ _ _ _ _ _ _ Hw Et Ez) as (L1 & L2 & F).
  destruct (Herr e be z (map snd l) Hene L1 L2 F) as (err & ->). simpl. eauto.
Qed.

(** ** Shapes *)
Section Shape.
Variable bw : kB k -> nat.
Notation width := (u_width k U).
Hypothesis HS : keep_shapes U bw.

Lemma estimate_shape a outs ins ws iv st l st' x z : ws <> [] -> estimate U a outs ins ws iv st = (Ok l, st') ->
  rows_of x (map fst l) = Ok z -> length z = length outs /\ Forall (fun row => width row = length ins) z.
Proof.
  intros Hw He Hz. destruct (estimate_solved _ _ _ _ _ _ _ _ _ _ Hw He Hz) as (L & _ & F). split; [exact L|].
  eapply Forall_impl; [|exact F]. intros y (e' & b' & w & Hi & Hne & Hs). destruct HS as (W & RW & _).
  apply (W _ _ _ _ Hs Hne). intros row Hr. apply RW, Hi, Hr.
Qed.

Lemma rows_none x (l : list (option (kZ k) * list Z)) z n : rows_of x (map fst l) = Ok z -> length l = n -> n <> 0 -> Forall (fun r => fst r = None) l -> False.
Proof.
  intros Hz Hl Hn F. apply rows_of_spec in Hz. destruct l as [|r l]; [simpl in *; congruence|]. inversion Hz; inversion F; subst. congruence.
Qed.

Lemma coeffs_shape a X coeffs w st r st' e b br : ia_weights a <> [] ->
  impedance_coeffs U a X coeffs w st = (Ok r, st') -> uses a X coeffs e b br ->
  shaped width (ir_z U r) (length e) (length b) /\ shaped width (ir_T U r) (length b) (nrem br) /\
  arr_shape (u_eshape k U) (ir_err U r) = (length e, length b) /\
  (match ir_z U r with NaNs _ _ => ir_ivt U r = [] | Values _ => length (ir_ivt U r) = length e end).
Proof.
  intros Hw H Hu. apply coeffs_inv in H as (e' & b' & br' & Hu' & H).
  assert (Le : length e' = length e /\ length b' = length b /\ nrem br' = nrem br).
  { destruct Hu as ((es & E1 & E2) & (bs & B1 & B2) & R), Hu' as ((es' & E1' & E2') & (bs' & B1' & B2') & R').
    rewrite E1 in E1'. injection E1' as <-. rewrite B1 in B1'. injection B1' as <-.
    apply Forall2_len in E2, E2', B2, B2'. split; [congruence|]. split; [congruence|].
    destruct (remote_name a), br, br'; try contradiction; [|reflexivity].
    destruct R as (rs & R1 & R2), R' as (rs' & R1' & R2'). rewrite R1 in R1'. injection R1' as <-. apply Forall2_len in R2, R2'. simpl. congruence. }
  destruct Le as (Le & Lb & Lr). rewrite <- Le, <- Lb, <- Lr. clear Hu e b br Le Lb Lr. rename e' into e, b' into b, br' into br.
  destruct H as [(_ & ->)|(T & be & iv1 & st1 & iv2 & l & z & err & F & Hp & He & Hz & Hx & ->)].
  - simpl. repeat split; congruence.
  - assert (Ne : e <> []) by (intros ->; destruct (apply_prefilter_spec _ _ _ _ _ _ Hp) as (G & _); congruence).
    assert (HT : length be = length b /\ shaped width (T_of b T) (length b) (nrem br)).
    { destruct br as [br|].
      - destruct F as (iv0 & l1 & T' & _ & F1 & F2 & -> & -> & _).
        destruct (estimate_shape _ _ _ _ _ _ _ _ _ _ (remote_weights_ne a Hw) F1 F2) as [G1 G2]. destruct HS as (_ & _ & D & _). rewrite D. simpl. auto.
      - destruct F as (-> & -> & _). simpl. auto. }
    destruct HT as [Hbe HT]. destruct (estimate_shape _ _ _ _ _ _ _ _ _ _ Hw He Hz) as [G1 G2]. rewrite Hbe in G2.
    simpl. split; [auto|]. split; [exact HT|]. destruct (estimate_solved _ _ _ _ _ _ _ _ _ _ Hw He Hz) as (L1 & L2 & _).
    split; [destruct HS as (_ & _ & _ & ES); rewrite (ES _ _ _ _ _ Hx Ne L1 L2); congruence|].
    rewrite !map_length. apply rows_of_spec, Forall2_len in Hz. congruence.
Qed.
End Shape.

(** ** Rejected windows *)
Lemma estimate_rejects a outs ins ws iv st l st' n : estimate U a outs ins ws iv st = (Ok l, st') ->
  Forall (fun c => length c = n) outs -> outs <> [] -> length iv = length outs -> Forall (legal n) iv ->
  length l = length outs /\ forall i x, nth_error l i = Some x -> exists iv0, nth_error iv i = Some iv0 /\
    StronglySorted Z.lt (snd x) /\ (forall j, In j (snd x) -> (0 <= j < Z.of_nat n)%Z) /\ (forall j, In j iv0 -> In j (snd x)).
Proof.
  unfold estimate. intros H Hn Hne Hliv Hiv. destruct (ia_real_pb a); [discriminate|].
  pose proof (transfer_function_solved _ _ _ _ _ _ _ _ H) as (_ & Hb & _).
  assert (En : length (u_rows k U ins) = n).
  { destruct outs as [|o outs]; [congruence|]. inversion Hn; inversion Hb; subst. congruence. }
  assert (Hivne : iv <> []) by (destruct iv, outs; simpl in *; congruence).
  assert (Hg : forall i g, given (IvEach iv) i g -> nth_error iv i = Some g) by (intros i g; destruct iv; [congruence|auto]).
  apply transfer_function_spec in H as [Hl H].
  - split; [exact Hl|]. intros i x Hx. assert (Hlt : i < length outs) by (rewrite <- Hl; apply nth_error_Some; congruence).
    apply nth_error_Some in Hlt. destruct (nth_error outs i) as [e|] eqn:He; [|congruence].
    destruct (H i e He) as (_ & z & iv' & z0 & iv0 & s1 & s2 & left & H1 & _ & H3 & H4 & H5 & H6).
    rewrite Hx in H1. injection H1 as ->. simpl. exists iv0. split; [apply Hg, H3|]. split; [exact H5|]. rewrite En in *.
    split; [intros j Hj; apply H6 in Hj as [Hj _]; exact Hj|]. intros j Hj.
    rewrite Forall_forall in Hiv. pose proof (Hiv iv0 (nth_error_In _ _ (Hg _ _ H3)) j Hj) as Hjn. apply H6. split; [exact Hjn|].
    assert (Sub : forall rows zz ivv w0 st0 zf lf stf, steps (ia_opts a) e (u_rows k U ins) rows zz ivv w0 st0 zf lf stf ->
       forall y, In y lf -> exists p, nth_error rows p = Some y /\ ~ In (Z.of_nat p) ivv).
    { clear. induction 1 as [rows z iv st left [_ R]|rows z iv w ws st rows' e' b' z' iv' st' zf left stf [_ R] _ _ _ _ _ IH]; intros y Hy; [apply R, Hy|].
      destruct (IH y Hy) as (p & Hp & _). apply R, (nth_error_In _ _ Hp). }
    intros Hin. destruct (Sub _ _ _ _ _ _ _ _ H4 _ Hin) as (p & Hp & Hnot). rewrite nth_error_seq in Hp.
    destruct (p <? n); [|discriminate]. injection Hp as Hp. apply Hnot. replace (Z.of_nat p) with j by lia. exact Hj.
  - rewrite En. intros i g Hgi. rewrite Forall_forall in Hiv. apply Hiv. eapply nth_error_In, Hg, Hgi.
Qed.

Lemma columns_Forall {T} (P : T -> Prop) l idx l' : columns l idx l' -> (forall c x, nth_error l c = Some x -> P x) -> Forall P l'.
Proof. intros H HP. induction H; constructor; eauto. Qed.

Lemma coeffs_rejects a X coeffs w st r st' z n : ia_weights a <> [] -> impedance_coeffs U a X coeffs w st = (Ok r, st') -> ir_z U r = Values z ->
  legal_prefilter (ia_prefilter a) -> legal_prefilter (ia_remote_prefilter a) ->
  (forall c x, nth_error coeffs c = Some x -> length x = n) ->
  exists e b br T be iv1 st1 iv2 l, uses a X coeffs e b br /\ first_stage a e b br st T be iv1 st1 /\
    apply_prefilter U e be (ia_prefilter a) iv1 = Ok iv2 /\ estimate U a e be (ia_weights a) iv2 st1 = (Ok l, st') /\ Forall2 (fun x y => fst x = Some y) l z /\
    ir_ivt U r = map (fun iv => if ia_keep a then invalid_times (run_windows X w) iv else []) (map snd l) /\
    (forall x, In x l -> StronglySorted Z.lt (snd x) /\ forall j, In j (snd x) -> (0 <= j < Z.of_nat n)%Z) /\
    (exists err, ir_err U r = Values err /\ u_error k U e be z (map snd l) = Ok err) /\ ir_T U r = T_of b T /\
    match br with None => True | Some br => forall iv0 l1, apply_prefilter U b br (remote_prefilter a) PNone = Ok iv0 ->
      estimate U a b br (remote_weights a) iv0 st = (Ok l1, st1) ->
      forall x1 x2 j, In x1 l1 -> In j (snd x1) -> In x2 l -> In j (snd x2) end.
Proof.
  intros Hw H Hz Lp Lrp Hn. apply coeffs_inv in H as (e & b & br & Hu & H).
  destruct H as [(_ & ->)|(T & be & iv1 & st1 & iv2 & l & z' & err & F & Hp & He & Hrow & Herr & ->)]; [discriminate|].
  simpl in Hz. injection Hz as ->. apply rows_of_spec in Hrow.
  pose proof Hu as ((es & _ & Ec) & (bs & _ & Bc) & _).
  pose proof (columns_Forall _ _ _ _ Ec Hn) as Fe. pose proof (columns_Forall _ _ _ _ Bc Hn) as Fb.
  assert (Lrp' : legal_prefilter (remote_prefilter a)) by (unfold remote_prefilter; destruct (ia_remote_prefilter a); assumption).
  pose proof (apply_prefilter_spec _ _ _ _ _ _ Hp) as (Hene & _ & Hl2 & Hspec).
  (* first stage *)
  assert (F1 : (forall i g, i < length e -> pgiven iv1 i g -> legal n g) /\
     match br with None => True | Some br => forall iv0 l1, apply_prefilter U b br (remote_prefilter a) PNone = Ok iv0 -> estimate U a b br (remote_weights a) iv0 st = (Ok l1, st1) ->
       forall x1 i g j, In x1 l1 -> In j (snd x1) -> i < length e -> pgiven iv1 i g -> In j g end).
  { destruct br as [br|].
    - destruct F as (iv0 & l1 & T' & F1 & F2 & _ & _ & _ & ->).
      pose proof (apply_prefilter_spec _ _ _ _ _ _ F1) as (Hbne & _ & Hl0 & _).
      assert (L0 : Forall (legal n) iv0).
      { eapply apply_prefilter_legal; [exact Lrp'|exact Fb| |exact F1]. intros i g _ ->. intros j []. }
      destruct (estimate_rejects _ _ _ _ _ _ _ _ n F2 Fb Hbne Hl0 L0) as [_ R].
      assert (PG : forall i g, i < length e -> pgiven (PEach (repeat (merged (map snd l1)) (length e))) i g -> g = merged (map snd l1)).
      { intros i g Hi G. destruct e as [|y e]; [congruence|]. cbn [pgiven length repeat] in G. change (nth_error (repeat (merged (map snd l1)) (length (y :: e))) i = Some g) in G.
        apply repeat_nth in G. exact G. }
      split.
      + intros i g Hi G. apply (PG i g Hi) in G. subst g. intros j Hj. apply merged_In in Hj as (iv & Hiv & Hj).
        apply in_map_iff in Hiv as (x & <- & Hx). apply In_nth_error in Hx as [m Hm]. destruct (R m x Hm) as (iv0' & _ & _ & R2 & _). auto.
      + intros iv0' l1' F1' F2'. rewrite F1 in F1'. injection F1' as <-. rewrite F2 in F2'. injection F2' as <-. intros x1 i g j Hx Hj Hi G. apply (PG i g Hi) in G. subst g. apply merged_In. exists (snd x1). split; [apply in_map, Hx|exact Hj].
    - destruct F as (_ & _ & -> & _). split; [|exact I]. intros i g _ ->. intros j []. }
  destruct F1 as [Hleg Hfirst].
  pose proof (apply_prefilter_legal U e be (ia_prefilter a) iv1 iv2 n Lp Fe Hleg Hp) as L2.
  destruct (estimate_rejects _ _ _ _ _ _ _ _ n He Fe Hene Hl2 L2) as [Hll R].
  exists e, b, br, T, be, iv1, st1, iv2, l. do 5 (split; [assumption|]). split; [reflexivity|]. split.
  - intros x Hx. apply In_nth_error in Hx as [m Hm]. destruct (R m x Hm) as (iv0' & _ & R1 & R2 & _). auto.
  - split; [exists err; split; [reflexivity|exact Herr]|]. split; [reflexivity|]. destruct br as [br|]; [|exact I]. intros iv0 l1 K1 K2. pose proof (Hfirst iv0 l1 K1 K2) as G2.
    intros x1 x2 j H1 Hj H2. apply In_nth_error in H2 as [m Hm]. destruct (R m x2 Hm) as (iv0' & R0 & _ & _ & R3). apply R3.
    assert (Hlt : m < length e) by (rewrite <- Hll; apply nth_error_Some; congruence). pose proof Hlt as Hs. apply nth_error_Some in Hs.
    destruct (nth_error e m) as [line|] eqn:Hline; [clear Hs|congruence].
    destruct (Hspec m line Hline) as (g & r' & G & Hr' & M). rewrite R0 in Hr'. injection Hr' as <-.
    assert (Hjg : In j g) by (eapply G2; eassumption). destruct (ia_prefilter a) as [f|]; [|subst; exact Hjg].
    destruct M as (lf & _ & _ & M). apply M. auto.
Qed.

(** ** real_pb *)
Lemma coeffs_real_pb a X coeffs w st r st' : ia_real_pb a = true -> impedance_coeffs U a X coeffs w st = (Ok r, st') ->
  ia_silent a = true /\ (exists n m, ir_z U r = NaNs n m) /\ (exists n m, ir_err U r = NaNs n m) /\ (exists n m, ir_T U r = NaNs n m) /\ ir_ivt U r = [].
Proof.
  intros Hr H. apply coeffs_inv in H as (e & b & br & _ & H).
  destruct H as [(Hs & ->)|(T & be & iv1 & st1 & iv2 & l & z' & err & F & Hp & He & Hrow & _)].
  - simpl. split; [exact Hs|]. eauto 10.
  - unfold estimate in He. rewrite Hr in He. discriminate.
Qed.
End Imp.

Section Loops.
Context {k : Kern} (U : UK k) {V K St : Type}.
Notation A := (kA k).
Notation E := (kE k).
Variable fourier : @sigset A V K -> num A -> res (list (list E) * windows).
Implicit Types (a : @iargs k St) (X : @sigset A V K) (st : St).

Lemma results_each a X l_freq : forall st rs st', impedance_results U fourier a X l_freq st = (Ok rs, st') ->
  Forall2 (fun f r => exists s s', impedance_one U fourier a X f s = (Ok r, s')) l_freq rs.
Proof.
  induction l_freq as [|f l IH]; intros st rs st'; simpl; [intros [= <- _]; constructor|].
  destruct (impedance_one U fourier a X f st) as [[r|x] st1] eqn:E0; [|discriminate].
  destruct (impedance_results U fourier a X l st1) as [[rs1|x] st2] eqn:E1; simpl; [|discriminate]. intros [= <- _]. constructor; eauto.
Qed.

Lemma impedance_inv a X l_freq st rs st' : impedance U fourier a X l_freq st = (Ok rs, st') ->
  impedance_results U fourier a X l_freq st = (Ok rs, st').
Proof.
  unfold impedance. destruct (impedance_results U fourier a X l_freq st) as [[rs1|x] st1]; cbn [bind]; [|intros [=]].
  repeat match goal with |- context [stack ?l] => destruct (stack l); cbn [bind]; [|intros [=]] end. intros [= <- <-]. reflexivity.
Qed.

Lemma impedance_each a X l_freq st rs st' : impedance U fourier a X l_freq st = (Ok rs, st') ->
  Forall2 (fun f r => exists s s', impedance_one U fourier a X f s = (Ok r, s')) l_freq rs.
Proof. intros H. eapply results_each, impedance_inv, H. Qed.

Lemma results_total a X l_freq : (forall f st, In f l_freq -> exists r st', impedance_one U fourier a X f st = (Ok r, st')) ->
  forall st, exists rs st', impedance_results U fourier a X l_freq st = (Ok rs, st').
Proof.
  induction l_freq as [|f l IH]; intros H st; simpl; [eauto|]. destruct (H f st (or_introl eq_refl)) as (r & st1 & ->).
  destruct (IH (fun g s Hg => H g s (or_intror Hg)) st1) as (rs & st2 & ->). simpl. eauto.
Qed.

(** the counts that an estimate starts from *)
Lemma one_inv a X f st r st' es bs Nr : t_get (ss_tags X) (ia_elec a) = Ok es -> t_get (ss_tags X) (ia_mag a) = Ok bs ->
  match remote_name a with None => Nr = 0 | Some rn => exists rs, t_get (ss_tags X) rn = Ok rs /\ Nr = length rs end ->
  impedance_one U fourier a X f st = (Ok r, st') ->
  match fourier X f with
  | Err _ => r = mkIres U (NaNs (length bs) (length es)) [] (NaNs (length bs) (length es)) (NaNs (length bs) Nr) /\ st' = st
  | Ok (coeffs, w) => impedance_coeffs U a X coeffs w st = (Ok r, st')
  end.
Proof.
  intros He Hb Hr. unfold impedance_one. rewrite He, Hb. cbn [bind].
  destruct (remote_name a) as [rn|].
  - destruct Hr as (rs & -> & ->). cbn [bind]. destruct (fourier X f) as [[c w]|x]; [auto|]. intros [= <- <-]. auto.
  - subst Nr. cbn [bind]. destruct (fourier X f) as [[c w]|x]; [auto|]. intros [= <- <-]. auto.
Qed.

Lemma one_eq a X f st es bs : t_get (ss_tags X) (ia_elec a) = Ok es -> t_get (ss_tags X) (ia_mag a) = Ok bs ->
  (forall rn, remote_name a = Some rn -> exists rs, t_get (ss_tags X) rn = Ok rs) ->
  impedance_one U fourier a X f st =
  match fourier X f with
  | Err _ => (Ok (mkIres U (NaNs (length bs) (length es)) [] (NaNs (length bs) (length es))
               (NaNs (length bs) (match remote_name a with Some rn => match t_get (ss_tags X) rn with Ok rs => length rs | Err _ => 0 end | None => 0 end))), st)
  | Ok (coeffs, w) => impedance_coeffs U a X coeffs w st
  end.
Proof.
  intros He Hb Hr. unfold impedance_one. rewrite He, Hb. cbn [bind].
  destruct (remote_name a) as [rn|].
  - destruct (Hr rn eq_refl) as (rs & ->). cbn [bind]. reflexivity.
  - cbn [bind]. reflexivity.
Qed.
End Loops.

Section Windows.
Context {k : Kern} {V K : Type}.
Lemma run_windows_counts (X : @sigset (kA k) V K) Nws Ls shs : length Nws = nb_runs X -> length Ls = nb_runs X -> length shs = nb_runs X ->
  counts (k := k) (run_windows X (Nws, Ls, shs)) = Nws.
Proof.
  unfold nb_runs, run_windows, counts. generalize (ss_signals X). intros l. revert Nws Ls shs.
  induction l as [|s l IH]; intros [|n Nws] [|a Ls] [|b shs] H1 H2 H3; try discriminate; [reflexivity|]. simpl in *. f_equal. apply IH; lia.
Qed.
Lemma run_windows_nth (X : @sigset (kA k) V K) Nws Ls shs r rate start n L sh :
  nth_error (run_windows X (Nws, Ls, shs)) r = Some ((rate, start), (n, L, sh)) ->
  exists s, nth_error (ss_signals X) r = Some s /\ rate = s_rate s /\ start = s_start s /\
    nth_error Nws r = Some n /\ nth_error Ls r = Some L /\ nth_error shs r = Some sh.
Proof.
  unfold run_windows. intros H. apply nth_error_combine_inv in H as [H1 H2].
  rewrite nth_error_map in H1, H2. destruct (nth_error (ss_signals X) r) as [s|]; [|discriminate]. injection H1 as <- <-.
  destruct (nth_error (combine (combine Nws Ls) shs) r) as [[[n' L'] sh']|] eqn:E; [|discriminate]. injection H2 as <- <- <-.
  apply nth_error_combine_inv in E as [E E3]. apply nth_error_combine_inv in E as [E1 E2]. exists s. auto 10.
Qed.
End Windows.
