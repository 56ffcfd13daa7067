(** Transfer function estimates of data sets (C55-C60, C85). *)
From Coq Require Import QArith Qcanon.
From Verif Require Import Base BaseLemmas Arith OrdLaws QcLemmas TagsModel SpecTags SyncModel SetModel SpecSet SetProofs Samples FourierModel FourierSet
  MestModel SpecMest MestSamples UtilsModel SpecUtils UtilsProofs UtilsRun StackProofs StageProofs RejectProofs UtilsSamples.
Open Scope nat_scope.

(** ** C55: prefilters accumulate *)
Theorem C55_union : forall (k : Kern) (U : UK k) outputs inputs f iv res,
  apply_prefilter U outputs inputs (Some f) iv = Ok res ->
  length res = length outputs /\
  forall i line, nth_error outputs i = Some line -> exists g l r,
    pgiven iv i g /\ f line (u_rows k U inputs) = Ok l /\ nth_error res i = Some r /\
    StronglySorted Z.lt r /\ forall x, In x r <-> In x g \/ In x l.
Proof.
  intros k U outputs inputs f iv res H. apply apply_prefilter_spec in H as (_ & _ & Hl & H). split; [exact Hl|].
  intros i line Hi. destruct (H i line Hi) as (g & r & G & Hr & l & Hf & Hs & Hx). exists g, l, r. auto 10.
Qed.
Print Assumptions C55_union.

Theorem C55_no_prefilter : forall (k : Kern) (U : UK k) outputs inputs iv res,
  apply_prefilter U outputs inputs None iv = Ok res ->
  length res = length outputs /\ forall i r, nth_error res i = Some r -> pgiven iv i r.
Proof.
  intros k U outputs inputs iv res H. apply apply_prefilter_spec in H as (_ & _ & Hl & H). split; [exact Hl|].
  intros i r Hr. assert (Hlt : i < length outputs) by (rewrite <- Hl; apply nth_error_Some; congruence). apply nth_error_Some in Hlt.
  destruct (nth_error outputs i) as [line|] eqn:Ho; [|congruence]. destruct (H i line Ho) as (g & r' & G & Hr' & ->). congruence.
Qed.
Print Assumptions C55_no_prefilter.

(** it succeeds exactly when there is an output, the given lists fit and the prefilter does not raise *)
Theorem C55_success : forall (k : Kern) (U : UK k) outputs inputs pf iv,
  (exists res, apply_prefilter U outputs inputs pf iv = Ok res) <->
  outputs <> [] /\ pfits iv (length outputs) /\
  forall f line, pf = Some f -> In line outputs -> exists l, f line (u_rows k U inputs) = Ok l.
Proof.
  intros k U outputs inputs pf iv. split.
  - intros (res & H). apply apply_prefilter_spec in H as (H1 & H2 & _ & H). split; [exact H1|]. split; [exact H2|].
    intros f line -> Hin. apply In_nth_error in Hin as [i Hi]. destruct (H i line Hi) as (g & r & _ & _ & l & Hf & _). eauto.
  - intros (H1 & H2 & H). apply apply_prefilter_ok; assumption.
Qed.
Print Assumptions C55_success.

Example C55_example :
  apply_prefilter u0 [[1; 2; 3; 4]; [1; 1; 1; 1]]%Z [[1; 2; 3; 4]]%Z (Some (fun l r => Ok (if (zsum l =? zsum r)%Z then [3; 1; 3]%Z else [0]%Z)))
    (PEach [[2; 1]; [2; 1]]%Z) = Ok [[1; 2; 3]; [0; 1; 2]]%Z /\
  apply_prefilter u0 [[1; 2; 3; 4]; [1; 1; 1; 1]]%Z [[1; 2; 3; 4]]%Z None (PFlat [2; 1]%Z) = Ok [[2; 1]; [2; 1]]%Z /\
  apply_prefilter u0 [[1; 2; 3; 4]; [1; 1; 1; 1]]%Z [[1; 2; 3; 4]]%Z None (PEach [[2; 1]]%Z) = Err AssertionError /\
  apply_prefilter u0 [] [[1; 2; 3; 4]]%Z None PNone = Err IndexError.
Proof. vm_compute. repeat split; reflexivity. Qed.

(** ** C56: shapes.
    [bw] is the length of a row of [inputs.T]. *)
Theorem C56_shapes : forall (k : Kern) (U : UK k) (V K St : Type) (fourier : @sigset (kA k) V K -> num (kA k) -> res (list (list (kE k)) * windows))
    (bw : kB k -> nat) (a : @iargs k St) X l_freq st rs st' es bs Nr,
  keep_shapes U bw ->
  ia_weights a <> [] ->
  t_get (ss_tags X) (ia_elec a) = Ok es -> t_get (ss_tags X) (ia_mag a) = Ok bs ->
  (no_remote (ia_remote a) /\ Nr = 0) \/ (exists rn rs, with_remote (ia_remote a) rn /\ t_get (ss_tags X) rn = Ok rs /\ Nr = length rs) ->
  impedance U fourier a X l_freq st = (Ok rs, st') ->
  length rs = length l_freq /\
  forall n f r, nth_error l_freq n = Some f -> nth_error rs n = Some r ->
    shaped (u_width k U) (ir_T U r) (length bs) Nr /\
    match fourier X f with
    | Ok _ => shaped (u_width k U) (ir_z U r) (length es) (length bs) /\ eshaped (u_eshape k U) (ir_err U r) (length es) (length bs) /\
              (length (ir_ivt U r) = length es \/ ir_ivt U r = [])
    | Err _ => ir_z U r = NaNs (length bs) (length es) /\ ir_err U r = NaNs (length bs) (length es) /\ ir_ivt U r = []
    end.
Proof.
  intros k U V K St fourier bw a X l_freq st rs st' es bs Nr HS Hw He Hb Hr0 H.
  assert (Hr : match remote_name a with None => Nr = 0 | Some rn => exists rs, t_get (ss_tags X) rn = Ok rs /\ Nr = length rs end)
    by (destruct Hr0 as [[N ->]|(rn & l & N & Hr)]; [apply no_remote_iff in N|apply with_remote_iff in N]; rewrite N; eauto). clear Hr0. apply impedance_each in H.
  split; [symmetry; eapply Forall2_len, H|]. intros n f r Hf Hn. destruct (Forall2_nth_error _ _ _ _ _ H Hf) as (r' & Hn' & s & s' & Ho).
  rewrite Hn in Hn'. injection Hn' as <-. exact (one_shapes U fourier bw HS a X f s r s' es bs Nr Hw He Hb Hr Ho).
Qed.
Print Assumptions C56_shapes.

Example C56_example :
  keep_shapes u0 (fun _ => 1) /\
  (* two electric channels: two rows when the coefficients exist, two columns otherwise *)
  shown (impedance u0 fourU argsEE setU [qd 1 4] []) = inl [(Values [11; 1]%Z, [[8%Q]; [8%Q]], Values [1%Z])] /\
  shown (impedance u0 fourU argsEE setU [q 3] []) = inl [(NaNs 1 2, [], NaNs 1 1)].
Proof.
  split; [exact u0_shapes|]. vm_compute. split; reflexivity.
Qed.

(** ** C57: silent failures *)
Theorem C57_silent : forall (k : Kern) (O : OrdLaws (kA k)) (U : UK k) (V K St : Type) (kone : K) tone cmul cdot calib cdiv
    (Nper ov : num (kA k)) (wd : window_arg (kE k)) (bw : kB k -> nat) (a : @iargs k St) (X : @sigset (kA k) V K) l_freq st es bs,
  keep_shapes U bw -> errors_exist U ->
  reach kone X -> ia_silent a = true -> ia_weights a <> [] ->
  total_prefilter (ia_prefilter a) -> total_prefilter (ia_remote_prefilter a) ->
  t_get (ss_tags X) (ia_elec a) = Ok es -> t_get (ss_tags X) (ia_mag a) = Ok bs ->
  (forall rn, with_remote (ia_remote a) rn -> exists rs, t_get (ss_tags X) rn = Ok rs) ->
  let fourier X f := set_fourier tone cmul cdot calib cdiv X f Nper ov wd in
  exists r st', impedance U fourier a X l_freq st = (r, st') /\
    (* the only failure left is that of np.array on estimates of different shapes *)
    (one_shape (fourier X) l_freq (length es) (length bs) -> exists rs, r = Ok rs) /\
    (~ one_shape (fourier X) l_freq (length es) (length bs) -> r = Err ValueError).
Proof. exact @silent_outcome. Qed.
Print Assumptions C57_silent.

(** A failure of the Fourier stage is silent, whatever [silent_fail] says. *)
Theorem C57_fourier_stage : forall (k : Kern) (U : UK k) (V K St : Type) (fourier : @sigset (kA k) V K -> num (kA k) -> res (list (list (kE k)) * windows))
    (a : @iargs k St) X f st es bs x,
  t_get (ss_tags X) (ia_elec a) = Ok es -> t_get (ss_tags X) (ia_mag a) = Ok bs ->
  (forall rn, with_remote (ia_remote a) rn -> exists rs, t_get (ss_tags X) rn = Ok rs) ->
  fourier X f = Err x ->
  exists r, impedance_one U fourier a X f st = (Ok r, st) /\ ir_z U r = NaNs (length bs) (length es) /\ ir_ivt U r = [].
Proof.
  intros k U V K St fourier a X f st es bs x He Hb Hr0 Hf. assert (Hr : forall rn, remote_name a = Some rn -> exists rs, t_get (ss_tags X) rn = Ok rs) by (intros rn N; apply Hr0, with_remote_iff, N). clear Hr0. rewrite (one_eq U fourier a X f st es bs He Hb Hr), Hf. eexists. split; [reflexivity|]. auto.
Qed.
Print Assumptions C57_fourier_stage.

(** Without [silent_fail], results are always computed values ... *)
Theorem C57_loud_values : forall (k : Kern) (U : UK k) (V K St : Type) (a : @iargs k St) (X : @sigset (kA k) V K) coeffs w st r st',
  ia_silent a = false -> impedance_coeffs U a X coeffs w st = (Ok r, st') -> exists z err, ir_z U r = Values z /\ ir_err U r = Values err.
Proof.
  intros k U V K St a X coeffs w st r st' Hs H. apply coeffs_inv in H as (e & b & br & _ & [(Hs' & _)|(T & be & iv1 & st1 & iv2 & l & z & err & _ & _ & _ & _ & _ & ->)]); [congruence|].
  simpl. eauto.
Qed.
Print Assumptions C57_loud_values.

(** ... and the failure of an estimator is the failure of [impedance]; with
    [silent_fail] it gives nan. *)
Theorem C57_estimator_failure : forall (k : Kern) (U : UK k) (V K St : Type) (fourier : @sigset (kA k) V K -> num (kA k) -> res (list (list (kE k)) * windows))
    (a : @iargs k St) X f fs st coeffs w es bs e b iv x st',
  no_remote (ia_remote a) -> fourier X f = Ok (coeffs, w) ->
  t_get (ss_tags X) (ia_elec a) = Ok es -> columns coeffs es e -> t_get (ss_tags X) (ia_mag a) = Ok bs -> columns coeffs bs b ->
  ia_real_pb a = false -> apply_prefilter U e b (ia_prefilter a) PNone = Ok iv -> transfer_function (ia_opts a) e (u_rows k U b) (ia_weights a) None (IvEach iv) st = (Err x, st') ->
  (ia_silent a = false -> impedance U fourier a X (f :: fs) st = (Err x, st')) /\
  (ia_silent a = true -> exists r, impedance_one U fourier a X f st = (Ok r, st') /\ ir_z U r = NaNs (length es) (length bs)).
Proof.
  intros k U V K St fourier a X f fs st coeffs w es bs e b iv x st' Hr Hf He Ce Hb Cb Hreal Hp Hx0. apply no_remote_iff in Hr.
  assert (Hx : estimate U a e b (ia_weights a) iv st = (Err x, st')) by (unfold estimate; rewrite Hreal; exact Hx0).
  assert (Q : impedance_one U fourier a X f st = (if ia_silent a then Ok (failed U e b None) else Err x, st')).
  { rewrite (one_eq U fourier a X f st es bs He Hb) by (intros rn G; congruence). rewrite Hf. unfold impedance_coeffs. cbv zeta. rewrite He, Hb, Hr. cbn [bind].
    rewrite (proj2 (columns_mapM _ _ _) Ce), (proj2 (columns_mapM _ _ _) Cb). cbn [bind]. unfold stage1. rewrite Hp, Hx. reflexivity. }
  split; intros Hs; rewrite Hs in Q.
  - apply impedance_err. simpl. rewrite Q. reflexivity.
  - rewrite Q. eexists. split; [reflexivity|]. simpl. apply Forall2_len in Ce, Cb. congruence.
Qed.
Print Assumptions C57_estimator_failure.

(** [silent_fail] does not cover an empty list of weights. *)
Theorem C57_no_weights_refuted :
  reach tt setU /\ shown (impedance u0 fourU (argsU [] None false true None None) setU [qd 1 4] []) = inr IndexError /\
  shown (impedance u0 fourU (argsU [] (Some "R"%string) false true None None) setU [qd 1 4] []) = inr ValueError.
Proof. split; [exact setU_reach|]. vm_compute. repeat split; reflexivity. Qed.
Print Assumptions C57_no_weights_refuted.

Example C57_example :
  (* the solver fails: nothing is left *)
  shown (impedance u0 fourU (argsU wsU None false true (Some (fun l _ => Ok (map Z.of_nat (seq 0 (length l))))) None) setU [qd 1 4; q 3] []) =
    inl [(NaNs 1 1, [], NaNs 1 0); (NaNs 1 1, [], NaNs 1 0)] /\
  shown (impedance u0 fourU (argsU wsU None false false (Some (fun l _ => Ok (map Z.of_nat (seq 0 (length l))))) None) setU [qd 1 4; q 3] []) =
    inr ValueError /\
  shown (impedance u0 fourU (argsU wsU None false false (drop 1) None) setU [qd 1 4; q 3] []) =
    inl [(Values [2%Z], [[4%Q; 6%Q]], NaNs 1 0); (NaNs 1 1, [], NaNs 1 0)] /\
  keep_shapes u0 (fun _ => 1) /\ errors_exist u0 /\ total_prefilter (drop 1) /\ legal_prefilter (drop 1).
Proof.
  split; [vm_compute; reflexivity|]. split; [vm_compute; reflexivity|]. split; [vm_compute; reflexivity|]. split; [exact u0_shapes|]. split; [exact u0_errors|]. split.
  - intros line rows. eexists. reflexivity.
  - intros line rows l. unfold drop. destruct (Z.ltb_spec 1 (Z.of_nat (length line))) as [D|D]; intros [= <-] i; [|intros []].
    intros [<-|[]]. change (kE k0) with Z in *. simpl. lia.
Qed.

(** ** C58: the reported times are the centres of the rejected windows, those that the
    last stage of the estimate returns *)
Theorem C58_times : forall (k : Kern) (U : UK k) (V K St : Type) (O : OrdLaws (kA k)) (kone : K) tone cmul cdot calib cdiv
    (Nper ov : num (kA k)) (wd : window_arg (kE k)) (a : @iargs k St) (X : @sigset (kA k) V K) f coeffs Nws Ls shs st r st' z,
  reach kone X -> ia_keep a = true -> ia_weights a <> [] ->
  legal_prefilter (ia_prefilter a) -> legal_prefilter (ia_remote_prefilter a) ->
  set_fourier tone cmul cdot calib cdiv X f Nper ov wd = Ok (coeffs, (Nws, Ls, shs)) ->
  impedance_coeffs U a X coeffs (Nws, Ls, shs) st = (Ok r, st') -> ir_z U r = Values z ->
  exists e inputs given st1 l, last_stage U a X coeffs st e inputs given st1 /\
    stage U (ia_opts a) e inputs (ia_weights a) (ia_prefilter a) given st1 l st' /\ estimates l z /\
    length (ir_ivt U r) = length l /\
    forall c x, nth_error l c = Some x -> exists ts, nth_error (ir_ivt U r) c = Some ts /\ length ts = length (snd x) /\
      forall p i, nth_error (snd x) p = Some i -> exists run j s L sh,
        in_run Nws i run j /\ nth_error (ss_signals X) run = Some s /\ nth_error Ls run = Some L /\ nth_error shs run = Some sh /\
        nth_error ts p = Some (centre (s_rate s) (s_start s) L sh j).
Proof.
  intros k U V K St O kone tone cmul cdot calib cdiv Nper ov wd a X f coeffs Nws Ls shs st r st' z R Hk Hw Lp Lrp Hf H Hz.
  destruct (coeffs_times U O kone tone cmul cdot calib cdiv Nper ov wd a X f coeffs Nws Ls shs st r st' z R Hk Hw Lp Lrp Hf H Hz)
    as (e & inputs & given & st1 & l & P & S & Z0 & Hl & Ht & _).
  exists e, inputs, given, st1, l. auto.
Qed.
Print Assumptions C58_times.

(** no time is reported when they are not to be kept *)
Theorem C58_not_kept : forall (k : Kern) (U : UK k) (V K St : Type) (a : @iargs k St) (X : @sigset (kA k) V K) coeffs w st r st',
  ia_keep a = false -> impedance_coeffs U a X coeffs w st = (Ok r, st') -> forall ts, In ts (ir_ivt U r) -> ts = [].
Proof. exact @coeffs_not_kept. Qed.
Print Assumptions C58_not_kept.

(** the formula is the mean of the times of the first sample of the window and of
    the first one after it *)
Theorem C58_centre : forall rate start L sh j, rate <> Q2Qc 0 ->
  @centre QA rate start L sh j =
  (((start + ZtoQc (Z.of_nat (sh * j)) / rate) + (start + ZtoQc (Z.of_nat (sh * j + L)) / rate)) / Q2Qc 2)%Qc.
Proof.
  intros rate start L sh j Hr. unfold centre, nhalf. cbn [QA nadd ndiv nmul nofZ n1].
  rewrite Nat2Z.inj_add, Nat2Z.inj_mul, ZtoQc_add. change (ZtoQc 1) with (Q2Qc 1). change (ZtoQc 2) with (Q2Qc 2).
  generalize (ZtoQc (Z.of_nat sh * Z.of_nat j)) (ZtoQc (Z.of_nat L)). intros u v.
  match goal with |- ?x = ?y => change (@eq Qc x y) end.
  replace (Q2Qc 2) with (1 + 1)%Qc by (apply Qc_is_canon; reflexivity). field. split; [exact Hr|discriminate].
Qed.
Print Assumptions C58_centre.

Example C58_example :
  reach tt setU /\
  match fourU setU (qd 1 4) with Ok (_, (n, l, s)) => Some (n, l, s) | _ => None end = Some ([4; 3], [4; 2], [2; 1]) /\
  (* windows 1 and 5: the second one of the first run and the second one of the second run *)
  shown (impedance u0 fourU (argsU wsU None false true (Some (fun _ _ => Ok [5; 1]%Z)) None) setU [qd 1 4] []) =
    inl [(Values [2%Z], [[4%Q; 6%Q; 24%Q]], NaNs 1 0)].
Proof. split; [exact setU_reach|]. vm_compute. repeat split; reflexivity. Qed.

(** ** C59: windows rejected in the first stage stay rejected: for every output of the
    first stage and every output of the second one *)
Theorem C59_carried_over : forall (k : Kern) (U : UK k) (V K St : Type) (a : @iargs k St) (X : @sigset (kA k) V K) coeffs w st r st' z n rn,
  with_remote (ia_remote a) rn -> ia_weights a <> [] ->
  legal_prefilter (ia_prefilter a) -> legal_prefilter (ia_remote_prefilter a) ->
  (forall c x, nth_error coeffs c = Some x -> length x = n) ->
  impedance_coeffs U a X coeffs w st = (Ok r, st') -> ir_z U r = Values z ->
  exists es bs rs e b br ws pf l1 T m l2 st1,
    t_get (ss_tags X) (ia_elec a) = Ok es /\ columns coeffs es e /\ t_get (ss_tags X) (ia_mag a) = Ok bs /\ columns coeffs bs b /\
    t_get (ss_tags X) rn = Ok rs /\ columns coeffs rs br /\
    list_or (ia_remote_weights a) (ia_weights a) ws /\ or_else (ia_remote_prefilter a) (ia_prefilter a) pf /\
    stage U (ia_opts a) b br ws pf PNone st l1 st1 /\ estimates l1 T /\
    stage U (ia_opts a) e (u_dot k U T br) (ia_weights a) (ia_prefilter a) (PEach (repeat m (length es))) st1 l2 st' /\ estimates l2 z /\
    forall x1 x2 j, In x1 l1 -> In j (snd x1) -> In x2 l2 -> In j (snd x2).
Proof.
  intros k U V K St a X coeffs w st r st' z n rn Hr Hw Lp Lrp Hc H Hz.
  destruct (coeffs_last U a X coeffs w st r st' z n Hw H Hz Lp Lrp Hc)
    as (e & inputs & given & st1 & l & (es & bs & b & E1 & E2 & B1 & B2 & P) & S & Z0 & _ & _ & C).
  destruct P as [(N & _)|(rn' & rs & br & ws & pf & l1 & T & m & Hr' & R1 & R2 & W & Pf & S1 & T1 & M & -> & ->)].
  { exfalso. destruct Hr as [Q1 Q2], N as [N|N]; rewrite N in Q1; congruence. }
  assert (rn' = rn) by (destruct Hr as [Q1 _], Hr' as [Q2 _]; congruence). subst rn'.
  exists es, bs, rs, e, b, br, ws, pf, l1, T, m, l, st1. do 12 (split; [assumption|]).
  intros x1 x2 j H1 Hj H2. apply (C m); [rewrite (Forall2_len _ _ _ E2); reflexivity|exact H2|]. apply M. eauto.
Qed.
Print Assumptions C59_carried_over.

(** so their times are among the reported times of every output *)
Theorem C59_times : forall (k : Kern) (U : UK k) (V K St : Type) (O : OrdLaws (kA k)) (kone : K) tone cmul cdot calib cdiv
    (Nper ov : num (kA k)) (wd : window_arg (kE k)) (a : @iargs k St) (X : @sigset (kA k) V K) f coeffs Nws Ls shs st r st' z rn,
  reach kone X -> ia_keep a = true -> ia_weights a <> [] ->
  legal_prefilter (ia_prefilter a) -> legal_prefilter (ia_remote_prefilter a) ->
  set_fourier tone cmul cdot calib cdiv X f Nper ov wd = Ok (coeffs, (Nws, Ls, shs)) ->
  impedance_coeffs U a X coeffs (Nws, Ls, shs) st = (Ok r, st') -> ir_z U r = Values z -> with_remote (ia_remote a) rn ->
  exists bs b rs br ws pf l1 st1,
    t_get (ss_tags X) (ia_mag a) = Ok bs /\ columns coeffs bs b /\ t_get (ss_tags X) rn = Ok rs /\ columns coeffs rs br /\
    list_or (ia_remote_weights a) (ia_weights a) ws /\ or_else (ia_remote_prefilter a) (ia_prefilter a) pf /\
    stage U (ia_opts a) b br ws pf PNone st l1 st1 /\
    forall x i ts, In x l1 -> In i (snd x) -> In ts (ir_ivt U r) ->
    exists run j s L sh, in_run Nws i run j /\ nth_error (ss_signals X) run = Some s /\ nth_error Ls run = Some L /\ nth_error shs run = Some sh /\
      In (centre (s_rate s) (s_start s) L sh j) ts.
Proof. exact @coeffs_carried. Qed.
Print Assumptions C59_times.

Example C59_example :
  (* the first stage rejects window 3, centre 8; without remote it is kept *)
  shown (impedance u0 fourU (argsU wsU (Some "R"%string) false true None (drop 3)) setU [qd 1 4] []) = inl [(Values [11%Z], [[8%Q]], Values [1%Z])] /\
  shown (impedance u0 fourU (argsU wsU None false true None (drop 3)) setU [qd 1 4] []) = inl [(Values [2%Z], [[6%Q]], NaNs 1 0)] /\
  legal_prefilter (drop 3).
Proof.
  split; [vm_compute; reflexivity|]. split; [vm_compute; reflexivity|].
  intros line rows l. unfold drop. destruct (Z.ltb_spec 3 (Z.of_nat (length line))) as [D|D]; intros [= <-] i; [|intros []].
  intros [<-|[]]. change (kE k0) with Z in *. simpl. lia.
Qed.

(** ** C60: real_pb *)
Theorem C60_real_pb : forall (k : Kern) (U : UK k) (V K St : Type) (fourier : @sigset (kA k) V K -> num (kA k) -> res (list (list (kE k)) * windows))
    (a : @iargs k St) X l_freq st rs st' es bs,
  ia_real_pb a = true ->
  t_get (ss_tags X) (ia_elec a) = Ok es -> t_get (ss_tags X) (ia_mag a) = Ok bs ->
  (forall rn, with_remote (ia_remote a) rn -> exists l, t_get (ss_tags X) rn = Ok l) ->
  impedance U fourier a X l_freq st = (Ok rs, st') ->
  (* only nan, and without silent_fail only because no frequency has coefficients *)
  (forall r, In r rs -> (exists n m, ir_z U r = NaNs n m) /\ (exists n m, ir_err U r = NaNs n m) /\ (exists n m, ir_T U r = NaNs n m) /\ ir_ivt U r = []) /\
  (ia_silent a = false -> forall f, In f l_freq -> exists x, fourier X f = Err x).
Proof.
  intros k U V K St fourier a X l_freq st rs st' es bs Hr He Hb Hrn0 H. assert (Hrn : forall rn, remote_name a = Some rn -> exists l, t_get (ss_tags X) rn = Ok l) by (intros rn N; apply Hrn0, with_remote_iff, N). clear Hrn0. apply impedance_each in H.
  assert (Q : forall f r s s', impedance_one U fourier a X f s = (Ok r, s') ->
    ((exists n m, ir_z U r = NaNs n m) /\ (exists n m, ir_err U r = NaNs n m) /\ (exists n m, ir_T U r = NaNs n m) /\ ir_ivt U r = []) /\
    (ia_silent a = false -> exists x, fourier X f = Err x)).
  { intros f r s s' Ho. rewrite (one_eq U fourier a X f s es bs He Hb Hrn) in Ho. destruct (fourier X f) as [[c w]|x].
    - apply coeffs_real_pb in Ho as (S & Ho); [|exact Hr]. split; [exact Ho|congruence].
    - injection Ho as <- _. simpl. split; eauto 10. }
  split.
  - intros r Hin. apply In_nth_error in Hin as [n Hn]. destruct (Forall2_nth_error_r _ _ _ _ _ H Hn) as (f & _ & s & s' & Ho). apply Q in Ho as [Ho _]. exact Ho.
  - intros Hs f Hin. apply In_nth_error in Hin as [n Hn]. destruct (Forall2_nth_error _ _ _ _ _ H Hn) as (r & _ & s & s' & Ho). apply Q in Ho as [_ Ho]. auto.
Qed.
Print Assumptions C60_real_pb.

(** without [silent_fail], TypeError at the first frequency with coefficients *)
Theorem C60_raises : forall (k : Kern) (U : UK k) (V K St : Type) (fourier : @sigset (kA k) V K -> num (kA k) -> res (list (list (kE k)) * windows))
    (a : @iargs k St) X f fs st coeffs w es bs e b iv,
  ia_real_pb a = true -> ia_silent a = false -> fourier X f = Ok (coeffs, w) ->
  t_get (ss_tags X) (ia_elec a) = Ok es -> columns coeffs es e -> t_get (ss_tags X) (ia_mag a) = Ok bs -> columns coeffs bs b ->
  (no_remote (ia_remote a) /\ apply_prefilter U e b (ia_prefilter a) PNone = Ok iv) \/
  (exists rn rs br pf, with_remote (ia_remote a) rn /\ t_get (ss_tags X) rn = Ok rs /\ columns coeffs rs br /\
     or_else (ia_remote_prefilter a) (ia_prefilter a) pf /\ apply_prefilter U b br pf PNone = Ok iv) ->
  impedance U fourier a X (f :: fs) st = (Err TypeError, st).
Proof.
  intros k U V K St fourier a X f fs st coeffs w es bs e b iv Hr Hs Hf He Ce Hb Cb H. apply impedance_err. simpl.
  enough (Q : impedance_one U fourier a X f st = (Err TypeError, st)) by (rewrite Q; reflexivity).
  assert (Hx : forall o i ws iv, estimate U a o i ws iv st = (Err TypeError, st)) by (intros; unfold estimate; rewrite Hr; reflexivity).
  destruct H as [[Hn Hp]|(rn & rs & br & pf & Hw & Hrn & Cr & Hpf & Hp)].
  - apply no_remote_iff in Hn. rewrite (one_eq U fourier a X f st es bs He Hb) by (intros rn G; congruence). rewrite Hf. unfold impedance_coeffs. cbv zeta. rewrite He, Hb, Hn. cbn [bind].
    rewrite (proj2 (columns_mapM _ _ _) Ce), (proj2 (columns_mapM _ _ _) Cb). cbn [bind]. unfold stage1. rewrite Hp, Hx, Hs. reflexivity.
  - apply with_remote_iff in Hw. rewrite (one_eq U fourier a X f st es bs He Hb) by (intros rn' G; rewrite Hw in G; injection G as <-; eauto).
    rewrite Hf. unfold impedance_coeffs. cbv zeta. rewrite He, Hb, Hw. cbn [bind]. rewrite Hrn. cbn [bind].
    rewrite (proj2 (columns_mapM _ _ _) Ce), (proj2 (columns_mapM _ _ _) Cb), (proj2 (columns_mapM _ _ _) Cr). cbn [bind]. unfold stage1.
    assert (remote_prefilter a = pf) as -> by (unfold remote_prefilter, or_else in *; destruct Hpf as [(x & G1 & G2)|[G1 G2]]; rewrite G1; congruence).
    rewrite Hp, Hx, Hs. reflexivity.
Qed.
Print Assumptions C60_raises.

Example C60_example :
  shown (impedance u0 fourU (argsU wsU (Some "R"%string) true true None (drop 3)) setU [qd 1 4; q 3] []) = inl [(NaNs 1 1, [], NaNs 1 1); (NaNs 1 1, [], NaNs 1 1)] /\
  shown (impedance u0 fourU (argsU wsU (Some "R"%string) true false None (drop 3)) setU [qd 1 4; q 3] []) = inr TypeError /\
  shown (impedance u0 fourU (argsU wsU None true false None None) setU [q 3; qd 1 4] []) = inr TypeError.
Proof. vm_compute. repeat split; reflexivity. Qed.

(** ** C85: the two stages of an estimate with remotes.
    Values are returned exactly when both stages succeed: first the magnetic outputs
    from the remote inputs, with the remote's weights and prefilter or else the local
    ones; then the electric outputs from the magnetic ones predicted by the first stage,
    without the windows that the first stage rejected for any output. *)
Theorem C85_remote : forall (k : Kern) (U : UK k) (V K St : Type) (a : @iargs k St) (X : @sigset (kA k) V K) coeffs w st rn z T err st',
  with_remote (ia_remote a) rn ->
  (exists r, impedance_coeffs U a X coeffs w st = (Ok r, st') /\ ir_z U r = Values z /\ ir_T U r = Values T /\ ir_err U r = Values err) <->
  ia_real_pb a = false /\
  exists es bs rs e b br ws1 pf1 l1 m l2 st1,
    t_get (ss_tags X) (ia_elec a) = Ok es /\ columns coeffs es e /\ t_get (ss_tags X) (ia_mag a) = Ok bs /\ columns coeffs bs b /\
    t_get (ss_tags X) rn = Ok rs /\ columns coeffs rs br /\
    list_or (ia_remote_weights a) (ia_weights a) ws1 /\ or_else (ia_remote_prefilter a) (ia_prefilter a) pf1 /\
    stage U (ia_opts a) b br ws1 pf1 PNone st l1 st1 /\ estimates l1 T /\ rejected_somewhere l1 m /\
    stage U (ia_opts a) e (u_dot k U T br) (ia_weights a) (ia_prefilter a) (PEach (repeat m (length es))) st1 l2 st' /\ estimates l2 z /\
    u_error k U e (u_dot k U T br) z (map snd l2) = Ok err.
Proof. intros k U V K St a X coeffs w st rn z T err st' H. apply remote_stages, with_remote_iff, H. Qed.
Print Assumptions C85_remote.

Theorem C85_local : forall (k : Kern) (U : UK k) (V K St : Type) (a : @iargs k St) (X : @sigset (kA k) V K) coeffs w st z err st',
  no_remote (ia_remote a) ->
  (exists r, impedance_coeffs U a X coeffs w st = (Ok r, st') /\ ir_z U r = Values z /\ ir_err U r = Values err) <->
  ia_real_pb a = false /\
  exists es bs e b l,
    t_get (ss_tags X) (ia_elec a) = Ok es /\ columns coeffs es e /\ t_get (ss_tags X) (ia_mag a) = Ok bs /\ columns coeffs bs b /\
    stage U (ia_opts a) e b (ia_weights a) (ia_prefilter a) PNone st l st' /\ estimates l z /\
    u_error k U e b z (map snd l) = Ok err.
Proof. intros k U V K St a X coeffs w st z err st' H. apply local_stage, no_remote_iff, H. Qed.
Print Assumptions C85_local.

Definition argsR (rw : option (list (option (wfun k0 (list nat))))) : @iargs k0 (list nat) :=
  mkIargs wsU None (Some "R"%string) rw (drop 3) "E" "B" o0 false true true.
Example C85_example :
  shown (impedance u0 fourU (argsR None) setU [qd 1 4] []) = inl [(Values [11%Z], [[8%Q]], Values [1%Z])] /\
  (* the iterations of the weight function: in both stages, or in the second one only *)
  snd (impedance u0 fourU (argsR None) setU [qd 1 4] []) = [0; 1; 0; 1] /\
  snd (impedance u0 fourU (argsR (Some [None])) setU [qd 1 4] []) = [0; 1] /\
  with_remote (ia_remote (argsR None)) "R" /\ no_remote (ia_remote (argsU wsU None false true None None)).
Proof. split; [vm_compute; reflexivity|]. split; [vm_compute; reflexivity|]. split; [vm_compute; reflexivity|]. split; [split; [reflexivity|discriminate]|left; reflexivity]. Qed.
