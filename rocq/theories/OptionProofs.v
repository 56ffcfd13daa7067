(** Proofs about options. *)
From Coq Require Import Reals.
From Coquelicot Require Import Complex.
From Verif Require Import Base BaseLemmas Arith TagsModel SyncModel SetModel FourierModel MestModel WeightModel RobustModel BiModel UtilsModel WholeModel OptionModel SpecOptions.

Lemma named_In k l : named k l = true <-> In k l.
Proof.
  unfold named, memb. rewrite existsb_exists. split; [intros (x & H & E); apply String.eqb_eq in E; subst; exact H|].
  intros H. exists k. split; [exact H|apply String.eqb_refl].
Qed.
Lemma partition_filter {T} (f : T -> bool) l : partition f l = (filter f l, filter (fun x => negb (f x)) l).
Proof. induction l as [|x l IH]; [reflexivity|]. cbn. rewrite IH. destruct (f x); reflexivity. Qed.
Lemma partition_free {V} (free : list (string * bool)) (kw : dict V) :
  partition (fun kv => named (fst kv) (map fst free)) kw =
  (filter (fun kv => named (fst kv) (map fst free)) kw, filter (fun kv => negb (named (fst kv) (map fst free))) kw).
Proof. apply partition_filter. Qed.

Lemma py_call_ok {V} s n (kw b r : dict V) : py_call s n kw = Ok (b, r) ->
  (forall k, In k (dkeys kw) -> ~ In k (map fst (firstn n (sg_params s)))) /\
  b = filter (fun kv => named (fst kv) (map fst (skipn n (sg_params s)))) kw /\
  r = filter (fun kv => negb (named (fst kv) (map fst (skipn n (sg_params s))))) kw /\
  (sg_rest s = false -> r = []) /\ (forall p, In p (skipn n (sg_params s)) -> snd p = false -> In (fst p) (dkeys b)).
Proof.
  unfold py_call. intros H. apply bind_ok in H as ([] & H1 & H). apply check_ok in H1. rewrite partition_free in H.
  apply bind_ok in H as ([] & H2 & H). apply check_ok in H2. apply bind_ok in H as ([] & H3 & H). apply check_ok in H3.
  injection H as <- <-. rewrite forallb_forall in H1, H3. split; [|split; [reflexivity|split; [reflexivity|split]]].
  - intros k Hk Ht. specialize (H1 k Hk). apply named_In in Ht. rewrite Ht in H1. discriminate.
  - intros Hr. rewrite Hr in H2. cbn in H2. apply Nat.eqb_eq in H2. apply length_zero_iff_nil. exact H2.
  - intros p Hp Hs. specialize (H3 p Hp). rewrite Hs in H3. cbn in H3. apply named_In. exact H3.
Qed.
Lemma py_call_intro {V} s n (kw : dict V) :
  (forall k, In k (dkeys kw) -> ~ In k (map fst (firstn n (sg_params s)))) ->
  (sg_rest s = false -> forall k, In k (dkeys kw) -> In k (map fst (skipn n (sg_params s)))) ->
  (forall p, In p (skipn n (sg_params s)) -> snd p = false -> In (fst p) (dkeys kw)) ->
  py_call s n kw = Ok (filter (fun kv => named (fst kv) (map fst (skipn n (sg_params s)))) kw, filter (fun kv => negb (named (fst kv) (map fst (skipn n (sg_params s))))) kw).
Proof.
  intros H1 H2 H3. unfold py_call. replace (forallb _ (dkeys kw)) with true.
  2:{ symmetry. apply forallb_forall. intros k Hk. specialize (H1 k Hk). destruct (named k _) eqn:E; [|reflexivity]. apply named_In in E. contradiction. }
  cbn [check bind]. rewrite partition_free. replace (sg_rest s || _) with true.
  2:{ symmetry. destruct (sg_rest s); [reflexivity|]. cbn. apply Nat.eqb_eq, length_zero_iff_nil. specialize (H2 eq_refl).
      revert H2. generalize (map fst (skipn n (sg_params s))). intros names H2. clear -H2. induction kw as [|(k, v) kw IH]; [reflexivity|]. cbn in H2 |- *.
      replace (named k names) with true by (symmetry; apply named_In, H2; left; reflexivity). cbn. apply IH. intros k' Hk'. apply H2. right. exact Hk'. }
  cbn [check bind]. replace (forallb _ (skipn n (sg_params s))) with true; [reflexivity|]. symmetry. apply forallb_forall.
  intros [name d] Hp. destruct d eqn:Ed; [reflexivity|]. cbn [snd fst orb]. apply named_In. specialize (H3 _ Hp eq_refl). cbn in H3.
  unfold dkeys in *. apply in_map_iff in H3 as ((k & v) & Ek & Hk). cbn in Ek. subst k. apply in_map_iff. exists (name, v). split; [reflexivity|].
  apply filter_In. split; [exact Hk|]. apply named_In. cbn. apply in_map_iff. exists (name, false). auto.
Qed.

Lemma keys_filter {V} (f : string -> bool) (d : dict V) k : In k (dkeys (filter (fun kv => f (fst kv)) d)) <-> In k (dkeys d) /\ f k = true.
Proof.
  unfold dkeys. rewrite !in_map_iff. split.
  - intros ((k', v) & <- & H). apply filter_In in H as (H & Hf). split; [exists (k', v); auto|exact Hf].
  - intros (((k', v) & <- & H) & Hf). exists (k', v). split; [reflexivity|]. apply filter_In. auto.
Qed.
Lemma dget_filter {V} (f : string -> bool) (d : dict V) k : f k = true -> dget k (filter (fun kv => f (fst kv)) d) = dget k d.
Proof.
  intros H. induction d as [|(k', v) d IH]; [reflexivity|]. cbn. destruct (String.eqb_spec k k') as [->|N].
  - rewrite H. cbn. rewrite String.eqb_refl. reflexivity.
  - destruct (f k'); cbn; [|exact IH]. apply String.eqb_neq in N. rewrite N. exact IH.
Qed.

(** what reaches the computation *)
Lemma coefficients_known kw X f y : coefficients_kw kw X f = Ok y ->
  (forall k, In k (dkeys kw) -> known_key k) /\ exists fo, options_of kw = Ok fo /\ coefficients fo X f = Ok y.
Proof.
  unfold coefficients_kw. intros H. apply bind_ok in H as ((b & r) & H1 & H). destruct (ss_signals X) as [|s runs] eqn:ES; [discriminate|].
  apply bind_ok in H as ((b2 & r2) & H2 & H). apply bind_ok in H as (cs & _ & H). apply bind_ok in H as (cs' & _ & H).
  apply bind_ok in H as ((b3 & r3) & H3 & H). apply bind_ok in H as (fo & Ho & H).
  apply py_call_ok in H1 as (T1 & -> & -> & _ & _). apply py_call_ok in H2 as (T2 & -> & -> & _ & _). apply py_call_ok in H3 as (T3 & _ & E3 & N3 & _).
  specialize (N3 eq_refl). rewrite N3 in E3. clear N3. split.
  - intros k Hk. unfold known_key.
    destruct (string_dec k "Nper") as [|D1]; [auto|]. destruct (string_dec k "overlap") as [|D2]; [auto|]. destruct (string_dec k "window") as [|D3]; [auto|].
    destruct (string_dec k "compute") as [|D4]; [auto|]. exfalso.
    assert (K1 : In k (dkeys (filter (fun kv : string * optv => negb (named (fst kv) (map fst (skipn 2 (sg_params sig_method))))) kw))).
    { apply (keys_filter (fun k => negb (named k (map fst (skipn 2 (sg_params sig_method)))))). split; [exact Hk|].
      destruct (named k _) eqn:E; [|reflexivity]. apply named_In in E. cbn in E. intuition. }
    assert (K2 : In k (dkeys (filter (fun kv : string * optv => negb (named (fst kv) (map fst (skipn 5 (sg_params sig_method)))))
                  (filter (fun kv : string * optv => negb (named (fst kv) (map fst (skipn 2 (sg_params sig_method))))) kw)))).
    { apply (keys_filter (fun k => negb (named k (map fst (skipn 5 (sg_params sig_method)))))). split; [exact K1|reflexivity]. }
    match type of E3 with [] = filter ?g ?d => assert (K3 : In k (dkeys (filter g d))) end.
    { apply (keys_filter (fun k => negb (named k (map fst (skipn 6 (sg_params sig_time_to_freq)))))). split; [exact K2|].
      destruct (named k _) eqn:E; [|reflexivity]. apply named_In in E. cbn in E. intuition. }
    rewrite <- E3 in K3. exact K3.
  - exists fo. split; [|exact H]. rewrite <- Ho. unfold options_of.
    rewrite !(dget_filter (fun k => named k (map fst (skipn 2 (sg_params sig_method))))) by reflexivity. reflexivity.
Qed.
Lemma coefficients_chosen kw X f fo : (forall k, In k (dkeys kw) -> known_key k) ->
  In "Nper"%string (dkeys kw) -> In "overlap"%string (dkeys kw) -> In "window"%string (dkeys kw) -> options_of kw = Ok fo ->
  coefficients_kw kw X f = coefficients fo X f.
Proof.
  intros K I1 I2 I3 Ho. unfold coefficients_kw. rewrite py_call_intro; cbn [bind].
  2:{ intros k Hk. apply K in Hk. cbn. intros [<-|[<-|[]]]; destruct Hk as [H|[H|[H|H]]]; discriminate. }
  2:{ discriminate. }
  2:{ intros p [<-|[<-|[<-|[]]]] _; assumption. }
  assert (R : forall k, In k (dkeys (filter (fun kv : string * optv => negb (named (fst kv) (map fst (skipn 2 (sg_params sig_method))))) kw)) -> k = "compute"%string).
  { intros k Hk. apply (keys_filter (fun k => negb (named k (map fst (skipn 2 (sg_params sig_method)))))) in Hk as (Hk & Hn).
    destruct (K k Hk) as [->|[->|[->| ->]]]; try discriminate. reflexivity. }
  assert (N : ss_signals X = [] -> coefficients fo X f = Err ValueError) by (intros E; destruct X as [sig tg]; cbn in E; subst sig; reflexivity).
  assert (F : forall s runs, ss_signals X = s :: runs ->
    (forall x, mapM (fun k : calibration => k f) (s_cal s) = Err x -> coefficients fo X f = Err x) /\
    (forall cs x, mapM (fun k : calibration => k f) (s_cal s) = Ok cs -> mapM (of_option AssertionError) cs = Err x -> coefficients fo X f = Err x)).
  { intros s runs E. destruct X as [sig tg]. cbn in E. subst sig. unfold coefficients, set_fourier, sync_fourier. cbn [mapM ss_signals].
    split; [intros x H|intros cs x H H']; unfold calibration in *; rewrite H; cbn [bind]; [reflexivity|rewrite H'; reflexivity]. }
  destruct (ss_signals X) as [|s runs]; [symmetry; exact (N eq_refl)|]. destruct (F s runs eq_refl) as (F1 & F2). clear N F.
  rewrite py_call_intro; cbn [bind].
  2:{ intros k Hk. apply R in Hk as ->. cbn. intuition discriminate. }
  2:{ discriminate. }
  2:{ intros p []. }
  destruct (mapM (fun k : calibration => k f) (s_cal s)) as [cs|x]; cbn [bind]; [|symmetry; exact (F1 x eq_refl)].
  destruct (mapM (of_option AssertionError) cs) as [cs'|x] eqn:E2; cbn [bind]; [|symmetry; exact (F2 cs x eq_refl E2)].
  rewrite py_call_intro; cbn [bind].
  2:{ intros k Hk. apply (keys_filter (fun k => negb (named k (map fst (skipn 5 (sg_params sig_method)))))) in Hk as (Hk & _). apply R in Hk as ->. cbn. intuition discriminate. }
  2:{ intros _ k Hk. apply (keys_filter (fun k => negb (named k (map fst (skipn 5 (sg_params sig_method)))))) in Hk as (Hk & _). apply R in Hk as ->. left. reflexivity. }
  2:{ intros p [<-|[]]. discriminate. }
  replace (options_of (filter _ kw)) with (options_of kw); [rewrite Ho; reflexivity|]. unfold options_of.
  rewrite !(dget_filter (fun k => named k (map fst (skipn 2 (sg_params sig_method))))) by reflexivity. reflexivity.
Qed.

Lemma call_type_error {V} sg n (d : dict V) x : py_call sg n d = Err x -> x = TypeError.
Proof.
  unfold py_call. destruct (forallb _ _); cbn; [|congruence]. destruct (partition _ d) as (b, r).
  destruct (sg_rest sg || _); cbn; [|congruence]. destruct (forallb _ _); cbn; congruence.
Qed.
(** a missing or repeated parameter of the method *)
Lemma call_refused kw X f :
  (exists k, (k = "Nper"%string \/ k = "overlap"%string \/ k = "window"%string) /\ ~ In k (dkeys kw)) \/ In "self"%string (dkeys kw) \/ In "freq"%string (dkeys kw) ->
  coefficients_kw kw X f = Err TypeError.
Proof.
  intros H. unfold coefficients_kw. assert (E : py_call sig_method 2 kw = Err TypeError).
  { destruct (py_call sig_method 2 kw) as [(b, r)|x] eqn:E.
    - exfalso. apply py_call_ok in E as (T & -> & _ & _ & D). destruct H as [(k & Hk & N)|[H|H]].
      + apply N. assert (P : In (k, false) (skipn 2 (sg_params sig_method))) by (cbn; destruct Hk as [->|[->| ->]]; auto).
        specialize (D _ P eq_refl). apply (keys_filter (fun k => named k (map fst (skipn 2 (sg_params sig_method))))) in D as (D & _). exact D.
      + apply (T _ H). cbn. auto.
      + apply (T _ H). cbn. auto.
    - apply call_type_error in E. congruence. }
  rewrite E. reflexivity.
Qed.
(** another keyword *)
Lemma call_unknown kw X f s runs k : (forall k, k = "Nper"%string \/ k = "overlap"%string \/ k = "window"%string -> In k (dkeys kw)) ->
  ss_signals X = s :: runs -> (forall c, In c (s_cal s) -> exists v, c f = Ok (Some v)) -> In k (dkeys kw) -> ~ known_key k ->
  coefficients_kw kw X f = Err TypeError.
Proof.
  intros K ES HC Hk N. unfold coefficients_kw. destruct X as [sig tg]. cbn in ES. subst sig. cbn [ss_signals].
  pose proof (@call_type_error optv) as TE.
  destruct (py_call sig_method 2 kw) as [(b, r)|x] eqn:E1; cbn [bind]; [|apply TE in E1; congruence].
  destruct (py_call sig_method 5 r) as [(b2, r2)|x] eqn:E2; cbn [bind]; [|apply TE in E2; congruence].
  assert (CS : exists vs, mapM (fun c : calibration => c f) (s_cal s) = Ok (map Some vs)).
  { revert HC. generalize (s_cal s). induction l as [|c l IH]; intros HC; [exists []; reflexivity|]. destruct (HC c (or_introl eq_refl)) as (v & Hv).
    destruct IH as (vs & Hvs); [intros c' Hc'; apply HC; right; exact Hc'|]. exists (v :: vs). cbn [mapM]. rewrite Hv, Hvs. reflexivity. }
  destruct CS as (vs & CS).
  match goal with |- bind ?m _ = _ => change m with (mapM (fun c : calibration => c f) (s_cal s)) end. rewrite CS. cbn [bind].
  assert (OS : mapM (of_option AssertionError) (map Some vs) = Ok vs) by (clear; induction vs as [|v vs IH]; [reflexivity|cbn; rewrite IH; reflexivity]).
  rewrite OS. cbn [bind].
  destruct (py_call sig_time_to_freq 6 r2) as [(b3, r3)|x] eqn:E3; cbn [bind]; [|apply TE in E3; congruence]. exfalso.
  apply py_call_ok in E1 as (T1 & -> & -> & _). apply py_call_ok in E2 as (T2 & -> & -> & _). apply py_call_ok in E3 as (T3 & _ & E3 & N3 & _).
  specialize (N3 eq_refl). rewrite N3 in E3. clear N3.
  unfold known_key in N.
  assert (K1 : In k (dkeys (filter (fun kv : string * optv => negb (named (fst kv) (map fst (skipn 2 (sg_params sig_method))))) kw))).
  { apply (keys_filter (fun k => negb (named k (map fst (skipn 2 (sg_params sig_method)))))). split; [exact Hk|].
    destruct (named k _) eqn:E; [|reflexivity]. apply named_In in E. cbn in E. intuition. }
  assert (K2 : In k (dkeys (filter (fun kv : string * optv => negb (named (fst kv) (map fst (skipn 5 (sg_params sig_method)))))
                (filter (fun kv : string * optv => negb (named (fst kv) (map fst (skipn 2 (sg_params sig_method))))) kw)))).
  { apply (keys_filter (fun k => negb (named k (map fst (skipn 5 (sg_params sig_method)))))). split; [exact K1|reflexivity]. }
  match type of E3 with [] = filter ?g ?d => assert (K3 : In k (dkeys (filter g d))) end.
  { apply (keys_filter (fun k => negb (named k (map fst (skipn 6 (sg_params sig_time_to_freq)))))). split; [exact K2|].
    destruct (named k _) eqn:E; [|reflexivity]. apply named_In in E. cbn in E. intuition. }
  rewrite <- E3 in K3. exact K3.
Qed.

(** the merged dictionary *)
Lemma dget_dset {V} k k' (v : V) d : dget k (dset k' v d) = if String.eqb k k' then Some v else dget k d.
Proof.
  induction d as [|(c, w) d IH]; cbn; [destruct (String.eqb k k'); reflexivity|].
  destruct (String.eqb_spec k' c) as [->|N]; cbn; destruct (String.eqb_spec k c) as [->|N'].
  - reflexivity.
  - reflexivity.
  - destruct (String.eqb_spec c k') as [->|_]; [congruence|reflexivity].
  - exact IH.
Qed.
Lemma fold_get {V} k items : forall d : dict V, NoDup (map fst items) ->
  dget k (fold_left (fun d kv => dset (fst kv) (snd kv) d) items d) = match dget k items with Some v => Some v | None => dget k d end.
Proof.
  induction items as [|(c, w) items IH]; intros d Hn; [reflexivity|]. cbn. cbn in Hn. inversion Hn as [|? ? Hc Hn']; subst.
  rewrite IH by exact Hn'. rewrite dget_dset. destruct (String.eqb_spec k c) as [->|N].
  - destruct (dget c items) as [u|] eqn:E; [|reflexivity]. exfalso. apply Hc. clear -E. induction items as [|(a, b) items IH]; [discriminate|]. cbn in *.
    destruct (String.eqb_spec c a) as [->|_]; [left; reflexivity|right; auto].
  - reflexivity.
Qed.
Lemma dget_in {V} k (v : V) d : NoDup (map fst d) -> dget k d = Some v <-> In (k, v) d.
Proof.
  induction d as [|(c, w) d IH]; cbn; intros Hn; [split; [discriminate|intros []]|]. inversion Hn as [|? ? Hc Hn']; subst.
  destruct (String.eqb_spec k c) as [->|N].
  - split; [intros H; injection H as ->; left; reflexivity|]. intros [H|H]; [injection H as ->; reflexivity|].
    exfalso. apply Hc. apply in_map_iff. exists (c, v). auto.
  - rewrite IH by exact Hn'. split; [auto|]. intros [H|H]; [injection H as -> _; congruence|exact H].
Qed.
Lemma dget_keys {V} k (d : dict V) : In k (dkeys d) <-> dget k d <> None.
Proof.
  induction d as [|(c, w) d IH]; cbn; [split; [intros []|congruence]|]. destruct (String.eqb_spec k c) as [->|N].
  - split; [congruence|auto].
  - unfold dkeys in IH. rewrite <- IH. split; [intros [E|E]; [congruence|exact E]|auto].
Qed.

Lemma call_values (kw : list (string * optv)) (X : recordings) (f : R) : NoDup (map fst kw) ->
  (forall n ov w, In ("Nper"%string, ONum n) kw -> In ("overlap"%string, ONum ov) kw -> In ("window"%string, OWin w) kw -> only_known (Some kw) ->
     coefficients_kw kw X f = coefficients (mkFopts n ov w) X f) /\
  (forall k, k = "Nper"%string \/ k = "overlap"%string \/ k = "window"%string -> (forall v, ~ In (k, v) kw) -> coefficients_kw kw X f = Err TypeError) /\
  (forall k v, k = "self"%string \/ k = "freq"%string -> In (k, v) kw -> coefficients_kw kw X f = Err TypeError) /\
  (forall k v s runs, In (k, v) kw -> ~ known_key k -> ss_signals X = s :: runs -> (forall c, In c (s_cal s) -> exists x, c f = Ok (Some x)) ->
     coefficients_kw kw X f = Err TypeError) /\
  (unusable (Some kw) -> exists x, coefficients_kw kw X f = Err x).
Proof.
  intros Hn.
  assert (KI : forall k v, In (k, v) kw -> In k (dkeys kw)) by (intros k v H; unfold dkeys; apply in_map_iff; exists (k, v); auto).
  assert (IK : forall k, In k (dkeys kw) -> exists v, In (k, v) kw) by (intros k H; unfold dkeys in H; apply in_map_iff in H as ((k' & v) & <- & H); exists v; exact H).
  assert (M : forall k, k = "Nper"%string \/ k = "overlap"%string \/ k = "window"%string -> (forall v, ~ In (k, v) kw) -> coefficients_kw kw X f = Err TypeError).
  { intros k Hk H. apply call_refused. left. exists k. split; [exact Hk|]. intros Hi. destruct (IK k Hi) as (v & Hv). exact (H v Hv). }
  split; [|split; [exact M|split; [|split]]].
  - intros n ov w H1 H2 H3 K. apply coefficients_chosen; [intros k Hk; destruct (IK k Hk) as (v & Hv); exact (K k v Hv)|eauto|eauto|eauto|].
    unfold options_of. apply (dget_in _ _ _ Hn) in H1, H2, H3. rewrite H1, H2, H3. reflexivity.
  - intros k v [->| ->] H; apply call_refused; right; [left|right]; eauto.
  - intros k v s runs H N ES HC.
    assert (D : forall k, In k (dkeys kw) \/ forall v, ~ In (k, v) kw).
    { intros k'. destruct (in_dec string_dec k' (dkeys kw)) as [H'|H']; [left; exact H'|right; intros v' Hv; apply H'; eauto]. }
    destruct (D "Nper"%string) as [D1|D1]; [|apply (M _ (or_introl eq_refl) D1)].
    destruct (D "overlap"%string) as [D2|D2]; [|apply (M _ (or_intror (or_introl eq_refl)) D2)].
    destruct (D "window"%string) as [D3|D3]; [|apply (M _ (or_intror (or_intror eq_refl)) D3)].
    apply (call_unknown kw X f s runs k); eauto. intros k' [->|[->| ->]]; assumption.
  - intros (d & k & v & E & Hin & Hb). injection E as <-. destruct (coefficients_kw kw X f) as [y|x] eqn:E; [exfalso|eauto].
    apply coefficients_known in E as (K & fo & Ho & _). unfold options_of in Ho.
    apply bind_ok in Ho as (n & H1 & Ho). apply bind_ok in Ho as (ov & H2 & Ho). apply bind_ok in Ho as (w & H3 & _).
    pose proof (proj2 (dget_in _ _ _ Hn) Hin) as Hv. destruct Hb as [N|[([-> | ->] & N)|(-> & N)]].
    + exact (N (K k (KI k v Hin))).
    + rewrite Hv in H1. destruct v; try discriminate. apply N. eauto.
    + rewrite Hv in H2. destruct v; try discriminate. apply N. eauto.
    + rewrite Hv in H3. destruct v; try discriminate. apply N. eauto.
Qed.

Section Merge.
Variables (slepian4 : window_arg C) (given : option (dict optv)).
Hypothesis Hp : proper given.
Lemma merged_get k : dget k (merged_options slepian4 given) =
  match dget k (given_or_empty given) with Some v => Some v | None => dget k (defaults slepian4) end.
Proof.
  unfold merged_options, dict_of. rewrite fold_left_app, fold_get; [|destruct given; [exact Hp|constructor]]. reflexivity.
Qed.
Lemma merged_chosen k d v : dget k (defaults slepian4) = Some d -> chosen given k d v <-> dget k (merged_options slepian4 given) = Some v.
Proof.
  intros Hd. rewrite merged_get, Hd. unfold chosen. destruct given as [g|]; cbn [given_or_empty dget].
  - cbn in Hp. destruct (dget k g) as [u|] eqn:E.
    + apply (dget_in k u g Hp) in E. split.
      * intros [H|[H _]]; [|exfalso; exact (H u E)]. apply (dget_in k v g Hp) in H. apply (dget_in k u g Hp) in E. congruence.
      * intros H. injection H as <-. left. exact E.
    + assert (N : forall v', ~ In (k, v') g) by (intros v' H; apply (dget_in k v' g Hp) in H; congruence).
      split; [intros [H|[_ ->]]; [exfalso; exact (N v H)|reflexivity]|intros H; injection H as <-; right; auto].
  - split; [intros ->; reflexivity|intros H; injection H as ->; reflexivity].
Qed.
Lemma merged_keys k : In k (dkeys (merged_options slepian4 given)) <->
  (exists v, match given with Some g => In (k, v) g | None => False end) \/ k = "Nper"%string \/ k = "overlap"%string \/ k = "window"%string.
Proof.
  rewrite dget_keys, merged_get. assert (G : dget k (given_or_empty given) <> None <-> exists v, match given with Some g => In (k, v) g | None => False end).
  { destruct given as [g|]; cbn.
    - rewrite <- dget_keys. unfold dkeys. rewrite in_map_iff. split; [intros ((c, v) & <- & H); exists v; exact H|intros (v & H); exists (k, v); auto].
    - split; [congruence|intros (v & [])]. }
  assert (D : dget k (defaults slepian4) <> None <-> k = "Nper"%string \/ k = "overlap"%string \/ k = "window"%string).
  { rewrite <- dget_keys. cbn. intuition. }
  rewrite <- G, <- D. destruct (dget k (given_or_empty given)); intuition congruence.
Qed.
End Merge.

Section Impedance.
Variables (slepian4 : window_arg C) (given : option (dict optv)).
Hypothesis Hp : proper given.

Lemma kw_values n ov w a X l : only_known given ->
  chosen given "Nper" (ONum (IZR 8)) (ONum n) -> chosen given "overlap" (ONum (Rdiv (IZR 71) (IZR 100))) (ONum ov) -> chosen given "window" (OWin slepian4) (OWin w) ->
  impedance_kw slepian4 given a X l = whole_impedance (mkFopts n ov w) a X l.
Proof.
  intros K C1 C2 C3. apply (merged_chosen slepian4 given Hp) in C1; [|reflexivity]. apply (merged_chosen slepian4 given Hp) in C2; [|reflexivity].
  apply (merged_chosen slepian4 given Hp) in C3; [|reflexivity].
  assert (E : forall f, coefficients_kw (merged_options slepian4 given) X f = coefficients (mkFopts n ov w) X f).
  { intros f. apply coefficients_chosen.
    - intros k Hk. apply (merged_keys slepian4 given Hp) in Hk as [(v & Hv)|[->|[->| ->]]]; unfold known_key; auto.
      destruct given as [g|]; [exact (K k v Hv)|destruct Hv].
    - apply dget_keys. rewrite C1. discriminate.
    - apply dget_keys. rewrite C2. discriminate.
    - apply dget_keys. rewrite C3. discriminate.
    - unfold options_of. rewrite C1, C2, C3. reflexivity. }
  unfold impedance_kw, whole_impedance, impedance.
  assert (G : forall l st, impedance_results listU (coefficients_kw (merged_options slepian4 given)) a X l st = impedance_results listU (coefficients (mkFopts n ov w)) a X l st).
  { clear l. induction l as [|f l IH]; intros st; [reflexivity|]. cbn [impedance_results].
    replace (impedance_one listU (coefficients_kw (merged_options slepian4 given)) a X f st) with (impedance_one listU (coefficients (mkFopts n ov w)) a X f st).
    - destruct (impedance_one _ _ a X f st) as [[r|x] st']; [|reflexivity]. rewrite IH. reflexivity.
    - unfold impedance_one. rewrite E. reflexivity. }
  rewrite G. reflexivity.
Qed.

Lemma kw_fails X f y : unusable given -> coefficients_kw (merged_options slepian4 given) X f = Ok y -> False.
Proof.
  intros (d & k & v & Eg & Hin & Hb) H. apply coefficients_known in H as (K & fo & Ho & _).
  assert (Hk : In k (dkeys (merged_options slepian4 given))) by (apply merged_keys; [exact Hp|]; left; exists v; rewrite Eg; exact Hin).
  assert (Hv : dget k (merged_options slepian4 given) = Some v).
  { rewrite merged_get by exact Hp. rewrite Eg in *. cbn. cbn in Hp. apply (dget_in k v d Hp) in Hin. rewrite Hin. reflexivity. }
  unfold options_of in Ho. apply bind_ok in Ho as (n & H1 & Ho). apply bind_ok in Ho as (ov & H2 & Ho). apply bind_ok in Ho as (w & H3 & _).
  destruct Hb as [N|[([-> | ->] & N)|(-> & N)]].
  - exact (N (K k Hk)).
  - rewrite Hv in H1. destruct v; try discriminate. apply N. eauto.
  - rewrite Hv in H2. destruct v; try discriminate. apply N. eauto.
  - rewrite Hv in H3. destruct v; try discriminate. apply N. eauto.
Qed.

Lemma stack_const {T} (l : list T) s : stack (map (fun _ => s) l) = Ok tt.
Proof.
  destruct l as [|x l]; [reflexivity|]. destruct s as (r, c). cbn [map stack].
  replace (forallb _ _) with true; [reflexivity|]. symmetry. apply forallb_forall. intros p Hp'. apply in_map_iff in Hp' as (y & <- & _).
  cbn [fst snd]. rewrite !Nat.eqb_refl. reflexivity.
Qed.
Lemma kw_nan a X l Ne Nb Nr : unusable given ->
  t_get (ss_tags X) (ia_elec a) = Ok Ne -> t_get (ss_tags X) (ia_mag a) = Ok Nb ->
  match remote_name a with None => Ok [] | Some r => t_get (ss_tags X) r end = Ok Nr ->
  impedance_kw slepian4 given a X l =
  Ok (map (fun _ => mkIres listU (NaNs (length Nb) (length Ne)) [] (NaNs (length Nb) (length Ne)) (NaNs (length Nb) (length Nr))) l).
Proof.
  intros Hu He Hb Hr. set (nan := mkIres listU _ _ _ _).
  assert (G : forall l st, impedance_results listU (coefficients_kw (merged_options slepian4 given)) a X l st = (Ok (map (fun _ => nan) l), st)).
  { clear l. induction l as [|f l IH]; intros st; [reflexivity|]. cbn [impedance_results map].
    replace (impedance_one listU (coefficients_kw (merged_options slepian4 given)) a X f st) with (@Ok result nan, st).
    - rewrite IH. reflexivity.
    - unfold impedance_one.
      match goal with |- context [bind (t_get ?t (ia_elec a)) _] => change (t_get t (ia_elec a)) with (t_get (ss_tags X) (ia_elec a)) end.
      rewrite He. cbn [bind].
      match goal with |- context [bind (t_get ?t (ia_mag a)) _] => change (t_get t (ia_mag a)) with (t_get (ss_tags X) (ia_mag a)) end.
      rewrite Hb. cbn [bind].
      match goal with |- context [bind ?m (fun r : ?T => Ok (_, length r))] => replace m with (@Ok T Nr) by (symmetry; exact Hr) end.
      cbn [bind].
      destruct (coefficients_kw (merged_options slepian4 given) X f) as [y|x] eqn:E; [exfalso; exact (kw_fails X f y Hu E)|reflexivity]. }
  unfold impedance_kw, impedance. rewrite G. cbn [fst bind].
  rewrite !map_map. cbn [nan ir_z ir_err ir_T arr_shape]. rewrite !stack_const. reflexivity.
Qed.
End Impedance.
