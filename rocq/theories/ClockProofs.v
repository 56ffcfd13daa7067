(** Estimates with another clock. *)
From Coq Require Import Reals Lra.
From Coquelicot Require Import Complex.
From Verif Require Import Base BaseLemmas Arith TagsModel SyncModel SetModel FourierModel MestModel BiModel WeightModel UtilsModel WholeModel SpecClock.

Section Clock.
Variables (u d : R).
Hypothesis Hu : (0 < u)%R.

Lemma mapM_rel {X Y Z} (R : X -> Y -> Prop) (f : X -> res Z) (g : Y -> res Z) l l' :
  Forall2 R l l' -> (forall x y, R x y -> g y = f x) -> mapM g l' = mapM f l.
Proof. intros H Hr. induction H as [|x y l l' H1 H2 IH]; [reflexivity|]. simpl. rewrite (Hr _ _ H1), IH. reflexivity. Qed.

Lemma freq_ratio f r : r <> 0%R -> Rdiv (Rmult u f) (Rmult u r) = Rdiv f r.
Proof. intros Hr. field. split; [exact Hr|lra]. Qed.

Lemma time_to_freq_clock data rate f n o w :
  time_to_freq (A := RA) r_tone Cmult r_dot data (Rmult u rate) (Rmult u f) n o w =
  time_to_freq (A := RA) r_tone Cmult r_dot data rate f n o w.
Proof.
  unfold time_to_freq. destruct (match _ with [m] => Ok m | _ => _ end); [cbn [bind]|reflexivity].
  change (neqb RA (Rmult u rate) (nzero RA)) with (Reqb (Rmult u rate) 0). change (neqb RA rate (nzero RA)) with (Reqb rate 0).
  change (ndiv RA (Rmult u f) (Rmult u rate)) with (Rdiv (Rmult u f) (Rmult u rate)). change (ndiv RA f rate) with (Rdiv f rate).
  assert (E : Reqb (Rmult u rate) 0 = Reqb rate 0).
  { unfold Reqb. destruct (Req_EM_T (Rmult u rate) 0) as [E|E], (Req_EM_T rate 0) as [E'|E']; try reflexivity; exfalso.
    - apply Rmult_integral in E. destruct E as [E|E]; [rewrite E in Hu; exact (Rlt_irrefl _ Hu)|exact (E' E)].
    - apply E. rewrite E'. apply Rmult_0_r. }
  rewrite E. unfold Reqb. destruct (Req_EM_T rate 0) as [H|H]; [reflexivity|]. cbn [negb check bind].
  rewrite (freq_ratio f rate H). reflexivity.
Qed.

Lemma coefficients_clock fo X X' f : recordings_on_clock u d X X' -> coefficients fo X' (Rmult u f) = coefficients fo X f.
Proof.
  intros (_ & H). unfold coefficients, set_fourier.
  rewrite (mapM_rel (run_on_clock u d)
             (fun s => sync_fourier (A := RA) r_tone Cmult r_dot (fun k : calibration => k) Cdiv s f (fo_nper fo) (fo_overlap fo) (fo_window fo))
             _ _ _ H); [reflexivity|].
  intros s s' (Hd & Hr & _ & Hc). unfold sync_fourier.
  rewrite (mapM_rel _ (fun k : calibration => k f) (fun k : calibration => k (Rmult u f)) _ _ Hc) by (intros k k' E; apply E).
  rewrite Hd, Hr, time_to_freq_clock. reflexivity.
Qed.

Definition live (s : sync RA R calibration) : Prop := (s_rate s : R) <> 0%R.
Lemma rates X f fo coeffs w : coefficients fo X f = Ok (coeffs, w) -> Forall live (ss_signals X).
Proof.
  unfold coefficients, set_fourier. intros H. apply bind_ok in H as (l & H & _). revert l H.
  induction (ss_signals X) as [|s ss IH]; intros l H; [constructor|]. simpl in H. apply bind_ok in H as (y & Hy & H).
  apply bind_ok in H as (r & Hr & _). constructor; [|eapply IH; exact Hr]. intros E.
  unfold sync_fourier in Hy. apply bind_ok in Hy as (? & _ & Hy). apply bind_ok in Hy as (? & _ & Hy). apply bind_ok in Hy as ((? & ?) & Hy & _).
  unfold time_to_freq in Hy. apply bind_ok in Hy as (? & _ & Hy). rewrite E in Hy.
  change (neqb RA 0%R (nzero RA)) with (Reqb 0 0) in Hy. unfold Reqb in Hy. destruct (Req_EM_T 0 0) as [_|N]; [discriminate|exact (N eq_refl)].
Qed.

Lemma invalid_times_clock (l l' : list (sync RA R calibration)) : Forall2 (run_on_clock u d) l l' -> Forall live l ->
  forall ws line, invalid_times (k := listK) (combine (map (fun s => (s_rate s, s_start s)) l') ws) line =
    map (on_clock u d) (invalid_times (k := listK) (combine (map (fun s => (s_rate s, s_start s)) l) ws) line).
Proof.
  induction 1 as [|s s' l l' (_ & Hr & Hs & _) H IH]; intros Hn ws line; [reflexivity|]. inversion Hn as [|? ? Hr0 Hn']; subst.
  destruct ws as [|((Nw & Lw) & shift) ws]; [reflexivity|]. cbn [map combine invalid_times]. rewrite map_app. f_equal; [|apply IH; exact Hn'].
  rewrite map_map. apply map_ext. intros i. rewrite Hr, Hs. unfold on_clock. cbn. field. split; [exact Hr0|lra].
Qed.

Lemma run_windows_clock X X' w line : recordings_on_clock u d X X' -> Forall live (ss_signals X) ->
  invalid_times (k := listK) (run_windows (k := listK) X' w) line = map (on_clock u d) (invalid_times (k := listK) (run_windows (k := listK) X w) line).
Proof. intros (_ & H) Hn. destruct w as ((Nw & Lw) & sh). unfold run_windows. apply invalid_times_clock; assumption. Qed.

Definition both {X Y} (R : X -> Y -> Prop) (x : res X) (y : res Y) : Prop :=
  match x, y with Ok x, Ok y => R x y | Err e, Err e' => @eq exn e e' | _, _ => False end.

Lemma coeffs_clock (a : arguments) (X X' : recordings) coeffs w (st : heap listW) : recordings_on_clock u d X X' -> Forall live (ss_signals X) ->
  both (result_on_clock u d) (fst (impedance_coeffs listU a X coeffs w st)) (fst (impedance_coeffs listU a X' coeffs w st)) /\
  snd (impedance_coeffs listU a X' coeffs w st) = snd (impedance_coeffs listU a X coeffs w st).
Proof.
  intros H Hn. pose proof (fun line => run_windows_clock X X' w line H Hn) as Hw. destruct H as (Ht & _).
  unfold impedance_coeffs. cbv zeta. change (ss_tags X' = ss_tags X) with (@ss_tags (kA listK) R calibration X' = @ss_tags (kA listK) R calibration X) in Ht. rewrite Ht. destruct (bind _ _) as [((e & b) & br)|x]; [|split; reflexivity].
  destruct (stage1 _ _ _ _ _) as [[[((T & be) & iv1)|]|x] st1]; [| |split; reflexivity].
  2: { split; [repeat split; reflexivity|reflexivity]. }
  destruct (apply_prefilter _ _ _ _ _) as [iv2|x]; [|split; reflexivity].
  destruct (estimate _ _ _ _ _ _) as [[l|x] st2].
  2: { destruct (ia_silent a); split; try reflexivity. repeat split; reflexivity. }
  split; [|reflexivity]. cbn [fst]. destruct (rows_of _ _) as [z|x]; [|reflexivity]. cbn [bind].
  destruct (u_error _ _ _ _ _ _) as [err|x]; [|reflexivity]. cbn [bind both]. split; [reflexivity|]. split; [reflexivity|]. split; [reflexivity|].
  cbn [ir_ivt]. destruct (ia_keep a).
  - etransitivity; [|symmetry; apply (map_map (B := list R))]. apply map_ext. intros line. apply Hw.
  - etransitivity; [|symmetry; apply (map_map (B := list R))]. reflexivity.
Qed.

Lemma one_clock fo (a : arguments) (X X' : recordings) f (st : heap listW) : recordings_on_clock u d X X' ->
  both (result_on_clock u d) (fst (impedance_one listU (coefficients fo) a X f st)) (fst (impedance_one listU (coefficients fo) a X' (Rmult u f) st)) /\
  snd (impedance_one listU (coefficients fo) a X' (Rmult u f) st) = snd (impedance_one listU (coefficients fo) a X f st).
Proof.
  intros H. unfold impedance_one. rewrite (coefficients_clock fo X X' f H). pose proof (proj1 H) as Ht.
  change (ss_tags X' = ss_tags X) with (@ss_tags (kA listK) R calibration X' = @ss_tags (kA listK) R calibration X) in Ht. rewrite Ht.
  destruct (bind _ _) as [((e & b) & br)|x]; [|split; reflexivity].
  destruct (coefficients fo X f) as [(coeffs & w)|x] eqn:E; [|split; [repeat split; reflexivity|reflexivity]].
  apply coeffs_clock; [exact H|]. exact (rates _ _ _ _ _ E).
Qed.

Lemma results_clock fo (a : arguments) (X X' : recordings) : recordings_on_clock u d X X' -> forall l (st : heap listW),
  both (Forall2 (result_on_clock u d)) (fst (impedance_results listU (coefficients fo) a X l st))
       (fst (impedance_results listU (coefficients fo) a X' (map (Rmult u) l) st)) /\
  snd (impedance_results listU (coefficients fo) a X' (map (Rmult u) l) st) = snd (impedance_results listU (coefficients fo) a X l st).
Proof.
  intros H. induction l as [|f l IH]; intros st; [split; [constructor|reflexivity]|]. cbn [map impedance_results].
  pose proof (one_clock fo a X X' f st H) as (H1 & H2).
  destruct (impedance_one listU (coefficients fo) a X f st) as [r st1].
  destruct (impedance_one listU (coefficients fo) a X' (Rmult u f) st) as [r' st1']. cbn [fst snd] in *. subst st1'.
  destruct r as [r|x], r' as [r'|x']; cbn [both] in H1; try contradiction.
  2: { subst x'. split; reflexivity. }
  destruct (IH st1) as (I1 & I2).
  destruct (impedance_results listU (coefficients fo) a X l st1) as [rs st2].
  destruct (impedance_results listU (coefficients fo) a X' (map (Rmult u) l) st1) as [rs' st2']. cbn [fst snd] in *. subst st2'.
  split; [|reflexivity]. destruct rs as [rs|x], rs' as [rs'|x']; cbn [both bind] in *; try contradiction; [constructor; assumption|exact I1].
Qed.

Lemma whole_clock fo a X X' l : recordings_on_clock u d X X' ->
  both (Forall2 (result_on_clock u d)) (whole_impedance fo a X l) (whole_impedance fo a X' (map (Rmult u) l)).
Proof.
  intros H. unfold whole_impedance, impedance.
  destruct (results_clock fo a X X' H l (fresh listW)) as (H1 & _).
  destruct (impedance_results listU (coefficients fo) a X l (fresh listW)) as [rs st2].
  destruct (impedance_results listU (coefficients fo) a X' (map (Rmult u) l) (fresh listW)) as [rs' st2']. cbn [fst] in *.
  destruct rs as [rs|x], rs' as [rs'|x']; cbn [both bind] in *; try contradiction; [|exact H1].
  assert (E : forall (T : Type) (g : @ires listK listU -> T), (forall r r', result_on_clock u d r r' -> g r' = g r) -> @map (@ires listK listU) T g rs' = @map (@ires listK listU) T g rs).
  { intros T g Hg. clear -H1 Hg. induction H1; [reflexivity|]. cbn. rewrite (Hg _ _ H), IHForall2. reflexivity. }
  rewrite (E _ (fun r : @ires listK listU => arr_shape (rows_shape listU) (ir_z listU r))) by (intros r r' (Ez & _); rewrite Ez; reflexivity).
  rewrite (E _ (fun r : @ires listK listU => arr_shape (u_eshape _ listU) (ir_err listU r))) by (intros r r' (_ & Ez & _); rewrite Ez; reflexivity).
  rewrite (E _ (fun r : @ires listK listU => arr_shape (rows_shape listU) (ir_T listU r))) by (intros r r' (_ & _ & Ez & _); rewrite Ez; reflexivity).
  destruct (stack _); [cbn [bind]|reflexivity]. destruct (stack _); [cbn [bind]|reflexivity]. destruct (stack _); [cbn [bind]|reflexivity]. exact H1.
Qed.
End Clock.
