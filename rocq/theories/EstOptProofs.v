(** Proofs about the options of the estimator. *)
From Coq Require Import Reals Lia.
From Coquelicot Require Import Complex.
From Verif Require Import Base BaseLemmas Arith TagsModel SyncModel SetModel FourierModel MestModel WeightModel RobustModel BiModel UtilsModel WholeModel OptionModel
  SpecOptions OptionProofs SpecRemote EstOptModel SpecEstOpt.
Open Scope nat_scope.

Lemma filter_none {V} (d : dict V) : filter (fun kv : string * V => negb (named (fst kv) [])) d = d.
Proof. induction d as [|x d IH]; [reflexivity|]. cbn. f_equal. exact IH. Qed.

Lemma map_rep {T W} (f : T -> W) x n : map f (repeat x n) = repeat (f x) n.
Proof. induction n as [|n IH]; [reflexivity|]. cbn. f_equal. exact IH. Qed.

Section Generic.
Context {k : Kern} (U : UK k) {V K St : Type}.

(** ** with known options *)
Lemma m_opts_filter (f : string -> bool) (d : dict (mopt k)) : f "tol"%string = true -> f "maxit"%string = true -> f "eps"%string = true ->
  m_opts (filter (fun kv => f (fst kv)) d) = m_opts d.
Proof. intros H1 H2 H3. unfold m_opts. rewrite !dget_filter by assumption. reflexivity. Qed.

Lemma m_estimate_known (kw : dict (mopt k)) o e b z0 (wf : option (wfun k St)) st : (forall key, In key (dkeys kw) -> estimator_key key) -> m_opts kw = Ok o ->
  m_estimate_kw kw e b z0 wf st = m_estimate o e b z0 wf [] st.
Proof.
  intros K1 Ho. unfold m_estimate_kw. rewrite py_call_intro; cbn [bind].
  - rewrite (m_opts_filter (fun key => named key (map fst (skipn 5 (sg_params sig_m_estimate))))) by reflexivity. rewrite Ho. reflexivity.
  - intros key Hk. apply K1 in Hk. cbn. destruct Hk as [->|[->| ->]]; intuition discriminate.
  - intros _ key Hk. apply K1 in Hk. cbn. destruct Hk as [->|[->| ->]]; auto.
  - intros p [<-|[<-|[<-|[]]]]; discriminate.
Qed.
Lemma chain_known (kw : dict (mopt k)) o ws : (forall key, In key (dkeys kw) -> estimator_key key) -> m_opts kw = Ok o ->
  forall e b z ii (st : St), chain_kw kw e b ws z ii st = chain o e b ws z ii st.
Proof.
  intros K1 Ho. induction ws as [|w ws IH]; intros e b z ii st; [reflexivity|]. cbn [chain_kw chain].
  destruct (eliminate e ii) as [e'|]; cbn [bind]; [|reflexivity]. destruct (eliminate b ii) as [b'|]; cbn [bind]; [|reflexivity].
  destruct (check _ ValueError); cbn [bind]; [|reflexivity].
  rewrite (m_estimate_known kw o) by assumption. destruct (m_estimate o e' b' z w [] st) as [[(z', ii')|x] st']; [|reflexivity].
  rewrite IH. reflexivity.
Qed.
Lemma chain_call (kw : dict (mopt k)) : (forall key, In key (dkeys kw) -> estimator_key key) -> py_call sig_chain 5 kw = Ok (filter (fun kv => named (fst kv) []) kw, kw).
Proof.
  intros K1. rewrite py_call_intro.
  - cbn [skipn sig_chain sg_params map]. rewrite filter_none. reflexivity.
  - intros key Hk. apply K1 in Hk. cbn. destruct Hk as [->|[->| ->]]; intuition discriminate.
  - discriminate.
  - intros p [].
Qed.
Lemma outputs_known (kw : dict (mopt k)) o b ws : (forall key, In key (dkeys kw) -> estimator_key key) -> m_opts kw = Ok o ->
  forall outputs inits ivs (st : St), each_output_kw kw b ws outputs inits ivs st = each_output o b ws outputs inits ivs st.
Proof.
  intros K1 Ho. induction outputs as [|e outputs IH]; intros [|z0 inits] [|iv ivs] st; try reflexivity. cbn [each_output_kw each_output].
  rewrite (chain_call kw K1). cbn [bind]. destruct iv as [iv|]; cbn [bind]; [|reflexivity].
  rewrite (chain_known kw o) by assumption. destruct (chain o e b ws z0 iv st) as (r, st').
  destruct (' (z, l) <- r;; m <- merge_invalid_indices l;; Ok (z, m)); [|reflexivity]. rewrite IH. reflexivity.
Qed.

(** the keys allowed for transfer_function *)
Definition open_key (key : string) : Prop := estimator_key key \/ key = "init"%string.
Lemma transfer_call (kw : dict (mopt k)) : (forall key, In key (dkeys kw) -> open_key key) ->
  py_call sig_transfer 3 kw = Ok (filter (fun kv => named (fst kv) ["init"; "invalid_idx"]%string) kw, filter (fun kv => negb (named (fst kv) ["init"; "invalid_idx"]%string)) kw) /\
  named "invalid_idx" (dkeys kw) = false.
Proof.
  intros K1. split.
  - rewrite py_call_intro; [reflexivity| | |].
    + intros key Hk. apply K1 in Hk. cbn. destruct Hk as [[->|[->| ->]]| ->]; intuition discriminate.
    + discriminate.
    + intros p [<-|[<-|[]]]; discriminate.
  - destruct (named _ _) eqn:E; [|reflexivity]. apply named_In in E. apply K1 in E as [[H|[H|H]]|H]; discriminate.
Qed.
Lemma rest_known (kw : dict (mopt k)) : (forall key, In key (dkeys kw) -> open_key key) ->
  forall key, In key (dkeys (filter (fun kv : string * mopt k => negb (named (fst kv) ["init"; "invalid_idx"]%string)) kw)) -> estimator_key key.
Proof.
  intros K1 key Hk. apply (keys_filter (fun key => negb (named key ["init"; "invalid_idx"]%string))) in Hk as (Hk & N).
  destruct (K1 key Hk) as [H| ->]; [exact H|discriminate].
Qed.
Lemma transfer_known (kw : dict (mopt k)) o init outputs b ws iv (st : St) : (forall key, In key (dkeys kw) -> open_key key) -> m_opts kw = Ok o ->
  initial (dget "init" kw) = Ok init ->
  transfer_function_kw kw outputs b ws iv st = transfer_function o outputs b ws init iv st.
Proof.
  intros K1 Ho Hi. unfold transfer_function_kw, transfer_function. destruct (transfer_call kw K1) as (-> & ->). cbn [negb check bind].
  rewrite (dget_filter (fun key => named key ["init"; "invalid_idx"]%string)) by reflexivity. rewrite Hi.
  destruct (iv_each (length outputs) iv) as [ivs|]; cbn [bind]; [|reflexivity].
  destruct (check (forallb _ outputs) AssertionError); cbn [bind]; [|reflexivity].
  destruct (check _ AssertionError); cbn [bind]; [|reflexivity].
  apply outputs_known; [apply rest_known; exact K1|].
  rewrite (m_opts_filter (fun key => negb (named key ["init"; "invalid_idx"]%string))) by reflexivity. exact Ho.
Qed.

(** ** with another option *)
Definition bad_key (key : string) : Prop := ~ estimator_key key /\ key <> "init"%string.
Lemma m_estimate_bad (kw : dict (mopt k)) key e b z0 (wf : option (wfun k St)) st : In key (dkeys kw) -> bad_key key ->
  exists x, m_estimate_kw kw e b z0 wf st = (Err x, st) /\ x = TypeError.
Proof.
  intros Hk (N & _). exists TypeError. split; [|reflexivity]. unfold m_estimate_kw. destruct (py_call sig_m_estimate 5 kw) as [(bd, r)|x] eqn:E.
  - exfalso. apply py_call_ok in E as (T & _ & R & R0 & _). specialize (R0 eq_refl). subst r.
    assert (Q : In key (dkeys (filter (fun kv : string * mopt k => negb (named (fst kv) (map fst (skipn 5 (sg_params sig_m_estimate))))) kw))).
    { apply (keys_filter (fun key => negb (named key (map fst (skipn 5 (sg_params sig_m_estimate)))))). split; [exact Hk|].
      destruct (named key _) eqn:E; [|reflexivity]. exfalso. apply N. apply named_In in E. cbn in E. unfold estimator_key. intuition. }
    rewrite R0 in Q. exact Q.
  - apply call_type_error in E as ->. reflexivity.
Qed.
Lemma chain_bad (kw : dict (mopt k)) key e b w ws z ii (st : St) : In key (dkeys kw) -> bad_key key ->
  exists x, chain_kw kw e b (w :: ws) z ii st = (Err x, st) /\ (ii = [] -> e <> [] -> x = TypeError).
Proof.
  intros Hk N. cbn [chain_kw].
  match goal with |- context [match ?m with Ok _ => _ | Err _ => _ end] => destruct m as [(e', b')|x] eqn:E1 end.
  - destruct (m_estimate_bad kw key e' b' z w st Hk N) as (x & -> & ->). exists TypeError. split; reflexivity.
  - exists x. split; [reflexivity|]. intros -> Hne. cbn in E1. destruct e; [congruence|discriminate].
Qed.
Lemma outputs_bad (kw : dict (mopt k)) key b w ws e outputs z0 inits iv ivs (st : St) : In key (dkeys kw) -> bad_key key ->
  exists x, each_output_kw kw b (w :: ws) (e :: outputs) (z0 :: inits) (iv :: ivs) st = (Err x, st) /\ (iv = Ok [] -> e <> [] -> x = TypeError).
Proof.
  intros Hk N. cbn [each_output_kw]. destruct (py_call sig_chain 5 kw) as [(bd, r)|x] eqn:E; cbn [bind].
  - apply py_call_ok in E as (_ & _ & R & _). cbn [skipn sig_chain sg_params map] in R. rewrite filter_none in R. subst r.
    destruct iv as [iv|x]; cbn [bind]; [|exists x; split; [reflexivity|discriminate]].
    destruct (chain_bad kw key e b w ws z0 iv st Hk N) as (x & -> & Hx). exists x. split; [reflexivity|]. intros H He. injection H as ->. exact (Hx eq_refl He).
  - apply call_type_error in E as ->. exists TypeError. split; reflexivity.
Qed.
Lemma transfer_bad (kw : dict (mopt k)) key e outputs b w ws iv (st : St) : In key (dkeys kw) -> bad_key key ->
  exists x, transfer_function_kw kw (e :: outputs) b (w :: ws) iv st = (Err x, st) /\
    (~ In "init"%string (dkeys kw) -> iv = IvEach (repeat [] (S (length outputs))) -> (forall l, In l (e :: outputs) -> length l = length b) -> e <> [] -> x = TypeError).
Proof.
  intros Hk N. unfold transfer_function_kw.
  destruct (check (negb _) TypeError) as [[]|x] eqn:E0; cbn [bind].
  2:{ unfold check in E0. destruct (negb _) in E0; [discriminate|]. injection E0 as <-. exists TypeError. split; reflexivity. }
  apply check_ok in E0. apply negb_true_iff in E0.
  destruct (py_call sig_transfer 3 kw) as [(bd, r)|x] eqn:E; cbn [bind].
  2:{ apply call_type_error in E as ->. exists TypeError. split; reflexivity. }
  apply py_call_ok in E as (_ & -> & -> & _).
  assert (Hk' : In key (dkeys (filter (fun kv : string * mopt k => negb (named (fst kv) (map fst (skipn 3 (sg_params sig_transfer))))) kw))).
  { apply (keys_filter (fun key => negb (named key (map fst (skipn 3 (sg_params sig_transfer)))))). split; [exact Hk|].
    destruct (named key _) eqn:E; [|reflexivity]. exfalso. apply named_In in E. cbn in E. destruct E as [E|[E|[]]]; subst key.
    - apply (proj2 N). reflexivity.
    - apply named_In in Hk. congruence. }
  match goal with |- context [match ?m with Ok _ => _ | Err _ => _ end] => destruct m as [((rest & ivs) & inits)|x] eqn:E1 end.
  - apply bind_ok in E1 as (ivs' & I1 & E1). apply bind_ok in E1 as ([] & _ & E1). apply bind_ok in E1 as (ini & I2 & E1).
    apply bind_ok in E1 as ([] & I3 & E1). apply check_ok, Nat.eqb_eq in I3. injection E1 as <- <- E1.
    assert (I6 : length inits = length (e :: outputs)) by (rewrite <- E1; exact I3). clear I3 E1.
    unfold iv_each in I1. apply bind_ok in I1 as (l & I4 & I1). apply bind_ok in I1 as ([] & _ & I1). apply bind_ok in I1 as ([] & I5 & I1).
    apply check_ok, Nat.eqb_eq in I5. injection I1 as <-.
    destruct inits as [|z0 inits]; [discriminate|]. destruct l as [|iv0 l]; [discriminate|].
    destruct (outputs_bad _ key b w ws e outputs z0 inits iv0 l st Hk' N) as (x & Hr & Hx). exists x. split; [exact Hr|].
    intros _ -> _ He. apply Hx; [|exact He]. cbn in I4. injection I4 as <- _. reflexivity.
  - exists x. split; [reflexivity|]. intros Hi -> HL He. exfalso.
    assert (A : iv_each (length (e :: outputs)) (IvEach (repeat [] (S (length outputs)))) = Ok (repeat (Ok []) (S (length outputs)))).
    { unfold iv_each. change (repeat [] (S (length outputs))) with (@nil Z :: repeat [] (length outputs)). cbn [bind map length]. rewrite map_rep, repeat_length, Nat.eqb_refl. reflexivity. }
    rewrite A in E1. cbn [bind] in E1. replace (forallb _ (e :: outputs)) with true in E1.
    2:{ symmetry. apply forallb_forall. intros l Hl. apply Nat.eqb_eq. exact (HL l Hl). }
    cbn [check bind] in E1. rewrite (dget_filter (fun key => named key (map fst (skipn 3 (sg_params sig_transfer))))) in E1 by reflexivity.
    replace (dget "init" kw) with (@None (mopt k)) in E1.
    2:{ destruct (dget "init" kw) eqn:D; [|reflexivity]. exfalso. apply Hi. apply dget_keys. congruence. }
    cbn [initial bind] in E1. rewrite repeat_length, Nat.eqb_refl in E1. discriminate.
Qed.
End Generic.

(** ** complete estimates *)
Lemma by_estimate {k : Kern} (U : UK k) {V K St : Type} F a (X : @sigset (kA k) V K) l (st : St) : impedance_by U (estimate U) F a X l st = impedance U F a X l st.
Proof. reflexivity. Qed.

Section Whole.
Variables (fo : fopts) (a : arguments) (X : recordings).
Definition opts_given (given : option (dict (mopt listK))) : dict (mopt listK) := match given with Some d => d | None => [] end.

(** what the estimator is called with *)
Definition called (outputs : list (list C)) (ws : list (option (wfun listK (heap listW)))) : Prop :=
  (ws = ia_weights a /\ exists es, t_get (ss_tags X) (ia_elec a) = Ok es /\ length outputs = length es) \/
  (ws = remote_weights a /\ (exists r, remote_name a = Some r) /\ exists bs, t_get (ss_tags X) (ia_mag a) = Ok bs /\ length outputs = length bs).
Lemma mapM_len {T W} (f : T -> res W) l : forall l', mapM f l = Ok l' -> length l' = length l.
Proof.
  induction l as [|x l IH]; cbn [mapM]; intros l' H; [injection H as <-; reflexivity|].
  apply bind_ok in H as (y & _ & H). apply bind_ok in H as (ys & H & E). injection E as <-. cbn. f_equal. exact (IH ys H).
Qed.

(** estimators that agree *)
Lemma by_ext est est' a' l st :
  (forall outputs inputs ws iv st, called outputs ws -> est a outputs inputs ws iv st = est' a' outputs inputs ws iv st) ->
  (exists o, a' = with_options a o) ->
  impedance_by (k := listK) (V := R) (K := calibration) (St := heap listW) listU est (coefficients fo) a X l st = impedance_by listU est' (coefficients fo) a' X l st.
Proof.
  intros H (o & ->). unfold impedance_by.
  assert (G : forall l st, impedance_results_by listU est (coefficients fo) a X l st = impedance_results_by listU est' (coefficients fo) (with_options a o) X l st).
  { clear l st. induction l as [|f l IH]; intros st; [reflexivity|]. cbn [impedance_results_by].
    replace (impedance_one_by listU est' (coefficients fo) (with_options a o) X f st) with (impedance_one_by listU est (coefficients fo) a X f st).
    - destruct (impedance_one_by _ _ _ a X f st) as [[r|x] st']; [|reflexivity]. rewrite IH. reflexivity.
    - unfold impedance_one_by. change (remote_name (with_options a o)) with (remote_name a).
      change (ia_elec (with_options a o)) with (ia_elec a). change (ia_mag (with_options a o)) with (ia_mag a).
      match goal with |- context [match ?m with Ok _ => _ | Err _ => _ end] => destruct m as [((Ne & Nb) & Nr)|x]; [|reflexivity] end.
      destruct (coefficients fo X f) as [(coeffs & w)|x]; [|reflexivity]. unfold impedance_coeffs_by.
      change (remote_name (with_options a o)) with (remote_name a).
      change (ia_elec (with_options a o)) with (ia_elec a). change (ia_mag (with_options a o)) with (ia_mag a).
      match goal with |- context [match ?m with Ok _ => _ | Err _ => _ end] => destruct m as [((e & b) & br)|x] eqn:Ep; [|reflexivity] end.
      apply bind_ok in Ep as (e' & P1 & Ep). apply bind_ok in Ep as (b' & P2 & Ep). apply bind_ok in Ep as (br' & P3 & Ep). injection Ep as -> -> ->.
      apply bind_ok in P1 as (es & T1 & P1). apply mapM_len in P1. apply bind_ok in P2 as (bs & T2 & P2). apply mapM_len in P2.
      assert (HE : called e (ia_weights a)) by (left; split; [reflexivity|]; exists es; split; assumption).
      assert (HB : br <> None -> called b (remote_weights a)).
      { intros N. right. split; [reflexivity|]. split; [|exists bs; split; assumption]. destruct (remote_name a) as [r|]; [exists r; reflexivity|]. exfalso. apply N. injection P3. auto. }
      replace (stage1_by listU est' (with_options a o) b br (length e) st) with (stage1_by listU est a b br (length e) st).
      2:{ unfold stage1_by. destruct br as [br|]; [|reflexivity]. change (remote_prefilter (with_options a o)) with (remote_prefilter a).
          destruct (apply_prefilter listU b br (remote_prefilter a) PNone) as [iv0|]; [|reflexivity].
          change (remote_weights (with_options a o)) with (remote_weights a). rewrite H by (apply HB; discriminate). reflexivity. }
      destruct (stage1_by listU est a b br (length e) st) as [[[((T & be) & iv1)|]|x] st']; try reflexivity.
      change (ia_prefilter (with_options a o)) with (ia_prefilter a). change (ia_weights (with_options a o)) with (ia_weights a).
      destruct (apply_prefilter listU e be (ia_prefilter a) iv1) as [iv2|]; [|reflexivity]. rewrite H by exact HE. reflexivity. }
  rewrite G. reflexivity.
Qed.

(** the options and their defaults *)
Lemma dget_chosen {V} (given : option (dict V)) key default v : proper given -> chosen given key default v ->
  dget key (match given with Some d => d | None => [] end) = Some v \/ (dget key (match given with Some d => d | None => [] end) = None /\ v = default).
Proof.
  destruct given as [d|]; cbn; intros Hp H; [|right; auto]. destruct H as [H|(H & ->)].
  - left. apply dget_in; assumption.
  - right. split; [|reflexivity]. destruct (dget key d) as [u|] eqn:E; [|reflexivity]. exfalso. apply (dget_in key u d Hp) in E. exact (H u E).
Qed.
Lemma real_chosen given key default v x : proper given -> chosen given key (MNum (k := listK) default) v -> stands_for v x ->
  real_option (k := listK) default (dget key (opts_given given)) = Ok x.
Proof.
  intros Hp H S. unfold opts_given. destruct (dget_chosen given key _ v Hp H) as [->|(-> & ->)].
  - destruct S as [->|(n & -> & ->)]; reflexivity.
  - destruct S as [S|(n & S & _)]; [injection S as <-; reflexivity|discriminate].
Qed.
Lemma opts_chosen given vt ve tol maxit eps : proper given ->
  chosen given "tol" (MNum (k := listK) (Rdiv 1 100)) vt -> stands_for vt tol ->
  chosen given "maxit" (MInt 100) (MInt maxit) ->
  chosen given "eps" (MNum (k := listK) (Rdiv 1 (IZR (10 ^ 14)))) ve -> stands_for ve eps ->
  m_opts (opts_given given) = Ok (mkOpts listK tol maxit eps).
Proof.
  intros Hp H1 S1 H2 H3 S3. unfold m_opts.
  pose proof (real_chosen given "tol" _ vt tol Hp H1 S1) as E1. pose proof (real_chosen given "eps" _ ve eps Hp H3 S3) as E3.
  change (ndiv (kA listK) (nofZ (kA listK) 1) (nofZ (kA listK) 100)) with (Rdiv 1 100). rewrite E1. cbn [bind].
  assert (E2 : int_option (k := listK) 100 (dget "maxit" (opts_given given)) = Ok maxit).
  { unfold opts_given. destruct (dget_chosen given "maxit" _ _ Hp H2) as [->|(-> & E)]; [reflexivity|injection E as ->; reflexivity]. }
  rewrite E2. cbn [bind]. change (ndiv (kA listK) (nofZ (kA listK) 1) (nofZ (kA listK) (10 ^ 14))) with (Rdiv 1 (IZR (10 ^ 14))). rewrite E3. reflexivity.
Qed.
Lemma keys_given {V} (P : string -> Prop) (given : option (dict V)) : keys_among P given -> forall key, In key (dkeys (match given with Some d => d | None => [] end)) -> P key.
Proof.
  intros H key Hk. destruct given as [d|]; [|destruct Hk]. unfold dkeys in Hk. apply in_map_iff in Hk as ((key' & v) & <- & Hk). exact (H key' v Hk).
Qed.
Lemma mest_values given vt ve tol maxit eps l : proper given -> keys_among estimator_key given ->
  chosen given "tol" (MNum (k := listK) (Rdiv 1 100)) vt -> stands_for vt tol ->
  chosen given "maxit" (MInt 100) (MInt maxit) ->
  chosen given "eps" (MNum (k := listK) (Rdiv 1 (IZR (10 ^ 14)))) ve -> stands_for ve eps ->
  impedance_mest fo given a X l = whole_impedance fo (with_options a (mkOpts listK tol maxit eps)) X l.
Proof.
  intros Hp HK H1 S1 H2 H3 S3. pose proof (opts_chosen given vt ve tol maxit eps Hp H1 S1 H2 H3 S3) as Ho.
  unfold impedance_mest, whole_impedance. rewrite <- by_estimate. f_equal. apply by_ext; [|exists (mkOpts listK tol maxit eps); reflexivity].
  intros outputs inputs ws iv st _. unfold estimate_kw, estimate. cbn [ia_real_pb with_options ia_opts]. destruct (ia_real_pb a); [reflexivity|].
  pose proof (keys_given _ _ HK) as HK'. apply transfer_known.
  - intros key Hk. left. exact (HK' key Hk).
  - exact Ho.
  - destruct (dget "init" _) as [v|] eqn:E; [|reflexivity]. exfalso. assert (Hi : In "init"%string (dkeys (opts_given given))) by (apply dget_keys; unfold opts_given; rewrite E; discriminate).
    apply HK' in Hi as [H|[H|H]]; discriminate.
Qed.

(** an initial estimate before least squares *)
Lemma outputs_init {k : Kern} {St} (o : opts k) b ws : forall outputs inits inits' ivs (st : St), length inits = length inits' ->
  each_output o b (None :: ws) outputs inits ivs st = each_output o b (None :: ws) outputs inits' ivs st.
Proof.
  induction outputs as [|e outputs IH]; intros [|z inits] [|z' inits'] [|iv ivs] st H; try discriminate; try reflexivity. injection H as H.
  cbn [each_output]. destruct iv as [iv|]; [|reflexivity].
  change (chain o e b (None :: ws) z iv st) with (chain o e b (None :: ws) z' iv st).
  destruct (chain o e b (None :: ws) z' iv st) as (r, st'). destruct (' (z0, l) <- r;; m <- merge_invalid_indices l;; Ok (z0, m)); [|reflexivity].
  rewrite (IH inits inits' ivs st' H). reflexivity.
Qed.
Lemma mest_init d d' rows es bs l : NoDup (map fst d) -> keys_among open_key (Some d) -> In ("init"%string, MInit rows) d -> without "init" d d' ->
  (exists o, m_opts d = Ok o) ->
  t_get (ss_tags X) (ia_elec a) = Ok es -> t_get (ss_tags X) (ia_mag a) = Ok bs ->
  starts_plain (ia_weights a) -> starts_plain (remote_weights a) -> length rows = length es -> (remote_name a <> None -> length rows = length bs) ->
  impedance_mest fo (Some d) a X l = impedance_mest fo (Some d') a X l.
Proof.
  intros Hp HK Hi (Hw & Hp') (o & Ho) Te Tb (w1 & W1) (w2 & W2) L1 L2. unfold impedance_mest. f_equal. apply by_ext; [|exists (ia_opts a); destruct a; reflexivity].
  intros outputs inputs ws iv st Hc. unfold estimate_kw. destruct (ia_real_pb a); [reflexivity|].
  assert (G : forall key, key <> "init"%string -> dget key d' = dget key d).
  { intros key N. destruct (dget key d) as [v|] eqn:E.
    - apply (dget_in key v d' Hp'). apply Hw. split; [|exact N]. apply (dget_in key v d Hp). exact E.
    - destruct (dget key d') as [v|] eqn:E'; [|reflexivity]. apply (dget_in key v d' Hp') in E'. apply Hw in E' as (E' & _). apply (dget_in key v d Hp) in E'. congruence. }
  pose proof (keys_given _ _ HK) as HK'.
  rewrite (transfer_known d o (Some rows)); [|exact HK'|exact Ho|].
  2:{ apply (dget_in "init" (MInit rows) d Hp) in Hi. rewrite Hi. reflexivity. }
  rewrite (transfer_known d' o None).
  2:{ intros key Hk. apply HK'. unfold dkeys in *. apply in_map_iff in Hk as ((key' & v) & <- & Hk). apply Hw in Hk as (Hk & _). apply in_map_iff. exists (key', v). auto. }
  2:{ unfold m_opts. rewrite !G by discriminate. exact Ho. }
  2:{ destruct (dget "init" d') as [v|] eqn:E; [|reflexivity]. apply (dget_in "init" v d' Hp') in E. apply Hw in E as (_ & E). congruence. }
  assert (LO : length rows = length outputs).
  { destruct Hc as [(_ & es' & E & Lo)|(_ & (r & Hr) & bs' & E & Lo)].
    - rewrite Te in E. injection E as <-. congruence.
    - rewrite Tb in E. injection E as <-. rewrite L2; congruence. }
  unfold transfer_function. destruct (iv_each _ _); cbn [bind]; [|reflexivity]. destruct (check _ AssertionError); cbn [bind]; [|reflexivity].
  rewrite LO, repeat_length, !Nat.eqb_refl. cbn [check bind]. rewrite ?Nat.eqb_refl. cbn [check bind].
  assert (LR : length rows = length (repeat (@None (kZ listK)) (length outputs))) by (rewrite repeat_length; exact LO).
  assert (S : exists w, ws = None :: w) by (destruct Hc as [(-> & _)|(-> & _)]; eauto). destruct S as (w & ->). apply outputs_init. exact LR.
Qed.

(** a wrong name *)
Section Misnamed.
Variables (kw : dict (mopt listK)) (key : string).
Hypotheses (Hk : In key (dkeys kw)) (Hb : bad_key key).
Variables (es bs rs : list nat).
Hypotheses (Te : t_get (ss_tags X) (ia_elec a) = Ok es) (Tb : t_get (ss_tags X) (ia_mag a) = Ok bs)
  (Tr : match remote_name a with None => Ok [] | Some r => t_get (ss_tags X) r end = Ok rs) (Ee : es <> []) (Eb : bs <> []) (Ew : ia_weights a <> []).
Lemma remote_weights_some : remote_weights a <> [].
Proof. unfold remote_weights. destruct (ia_remote_weights a) as [[|w ws]|]; [exact Ew|discriminate|exact Ew]. Qed.
Lemma estimate_bad outputs inputs ws iv st : outputs <> [] -> ws <> [] ->
  exists x, estimate_kw listU kw a outputs inputs ws iv st = (Err x, st) /\
    (~ In "init"%string (dkeys kw) -> iv = repeat [] (length outputs) -> (forall l, In l outputs -> length l = length (l_rows inputs)) -> hd [] outputs <> [] -> x = TypeError).
Proof.
  intros No Nw. unfold estimate_kw. destruct (ia_real_pb a); [exists TypeError; split; reflexivity|].
  destruct outputs as [|e outputs]; [congruence|]. destruct ws as [|w ws]; [congruence|].
  destruct (transfer_bad kw key e outputs (u_rows listK listU inputs) w ws (IvEach iv) st Hk Hb) as (x & -> & Hx). exists x. split; [reflexivity|].
  intros Hi -> HL He. apply Hx; [exact Hi|reflexivity|exact HL|exact He].
Qed.
Definition failed : result := mkIres listU (NaNs (length es) (length bs)) [] (NaNs (length es) (length bs)) (NaNs (length bs) (length rs)).
Definition no_coeffs : result := mkIres listU (NaNs (length bs) (length es)) [] (NaNs (length bs) (length es)) (NaNs (length bs) (length rs)).
Lemma prefilter_plain (outputs inputs : list (list C)) : outputs <> [] -> apply_prefilter listU outputs inputs None PNone = Ok (repeat [] (length outputs)).
Proof.
  intros H. unfold apply_prefilter. rewrite repeat_length, Nat.eqb_refl. destruct outputs; [congruence|reflexivity].
Qed.
Lemma columns_rows (inputs : list (list C)) n : inputs <> [] -> (forall l, In l inputs -> length l = n) -> length (l_rows inputs) = n.
Proof.
  intros H HL. destruct inputs as [|l inputs]; [congruence|]. unfold l_rows. change (@seq.map) with (@map). rewrite map_length.
  change (@seq.iota) with seq. rewrite seq_length. exact (HL l (or_introl eq_refl)).
Qed.

(** one frequency *)
Lemma one_bad f st : exists r, impedance_one_by listU (estimate_kw listU kw) (coefficients fo) a X f st = (r, st) /\
  match coefficients fo X f with
  | Err _ => r = Ok no_coeffs
  | Ok (coeffs, w) =>
      (forall x, r = Ok x -> x = failed /\ ia_silent a = true) /\
      ((forall c, In c (es ++ bs ++ rs) -> c < length coeffs) -> ia_prefilter a = None -> remote_prefilter a = None ->
       (ia_silent a = true -> r = Ok failed) /\
       (ia_silent a = false -> ~ In "init"%string (dkeys kw) -> (remote_name a <> None -> rs <> []) ->
        (exists n, 0 < n /\ recorded coeffs n (es ++ bs ++ rs)) -> r = Err TypeError))
  end.
Proof.
  unfold impedance_one_by.
  match goal with |- context [bind (t_get ?t (ia_elec a)) _] => change (t_get t (ia_elec a)) with (t_get (ss_tags X) (ia_elec a)) end. rewrite Te. cbn [bind].
  match goal with |- context [bind (t_get ?t (ia_mag a)) _] => change (t_get t (ia_mag a)) with (t_get (ss_tags X) (ia_mag a)) end. rewrite Tb. cbn [bind].
  match goal with |- context [bind ?m (fun r : ?T => Ok (_, length r))] => replace m with (@Ok T rs) by (symmetry; exact Tr) end. cbn [bind].
  destruct (coefficients fo X f) as [(coeffs & w)|x]; [|eexists; split; reflexivity].
  unfold impedance_coeffs_by.
  match goal with |- context [bind (t_get ?t (ia_elec a)) _] => change (t_get t (ia_elec a)) with (t_get (ss_tags X) (ia_elec a)) end. rewrite Te.
  match goal with |- context [bind (t_get ?t (ia_mag a)) _] => change (t_get t (ia_mag a)) with (t_get (ss_tags X) (ia_mag a)) end. rewrite Tb. cbn [bind].
  assert (PK : forall idx, (exists l, @mapM nat (list (kE listK)) (fun i => @nth_res (list (kE listK)) coeffs i) idx = Ok l /\ length l = length idx /\ forall n, recorded coeffs n idx -> forall y, In y l -> length y = n) \/
     (exists x, @mapM nat (list (kE listK)) (fun i => @nth_res (list (kE listK)) coeffs i) idx = Err x /\ ~ forall c, In c idx -> c < length coeffs)).
  { intros idx. induction idx as [|i idx IH]; [left; exists []; split; [reflexivity|split; [reflexivity|intros n _ y []]]|]. cbn [mapM].
    assert (ER : @nth_res (list (kE listK)) coeffs i = of_option IndexError (nth_error coeffs i)) by reflexivity. rewrite !ER.
    destruct (nth_error coeffs i) as [y|] eqn:E; cbn [of_option bind].
    - destruct IH as [(l & -> & L & HL)|(x & -> & N)]; cbn [bind].
      + left. exists (y :: l). split; [reflexivity|]. split; [cbn; f_equal; exact L|]. intros n Hn y' [<-|Hy'].
        * destruct (Hn i (or_introl eq_refl)) as (line & E' & L').
          assert (H0 : Some y = Some line) by (transitivity (nth_error coeffs i); [symmetry; exact E|exact E']). injection H0 as ->. exact L'.
        * apply (HL n); [intros c Hc; apply Hn; right; exact Hc|exact Hy'].
      + right. exists x. split; [reflexivity|]. intros H. apply N. intros c Hc. apply H. right. exact Hc.
    - right. eexists. split; [reflexivity|]. intros H. apply nth_error_None in E. specialize (H i (or_introl eq_refl)). lia. }
  destruct (PK es) as [(e & Pe & Le & Re)|(x & Pe & N)].
  2:{ rewrite Pe. cbn [bind]. exists (Err x). split; [reflexivity|]. split; [discriminate|]. intros H. exfalso. apply N. intros c Hc. apply H. apply in_or_app. auto. }
  rewrite Pe. cbn [bind]. destruct (PK bs) as [(b & Pb & Lb & Rb)|(x & Pb & N)].
  2:{ rewrite Pb. cbn [bind]. exists (Err x). split; [reflexivity|]. split; [discriminate|]. intros H. exfalso. apply N. intros c Hc. apply H. apply in_or_app; right. apply in_or_app. auto. }
  rewrite Pb. cbn [bind].
  assert (Ne : e <> []) by (intros ->; destruct es; [congruence|discriminate]).
  assert (Nb : b <> []) by (intros ->; destruct bs; [congruence|discriminate]).
  assert (HD : forall (l : list (list C)) n, l <> [] -> 0 < n -> (forall y, In y l -> length y = n) -> hd [] l <> []).
  { intros l n Nl Hn HL. destruct l as [|y l]; [congruence|]. specialize (HL y (or_introl eq_refl)). cbn. intros ->. cbn in HL. lia. }
  destruct (remote_name a) as [r|] eqn:Rn.
  - cbn [bind]. change (t_get (ss_tags X) r = Ok rs) in Tr.
    match goal with |- context [bind (t_get ?t r) _] => change (t_get t r) with (t_get (ss_tags X) r) end. rewrite Tr. cbn [bind].
    destruct (PK rs) as [(br & Pr & Lr & Rr)|(x & Pr & N)].
    2:{ rewrite Pr. cbn [bind]. exists (Err x). split; [reflexivity|]. split; [discriminate|]. intros H. exfalso. apply N. intros c Hc. apply H. apply in_or_app; right. apply in_or_app. auto. }
    rewrite Pr. cbn [bind]. unfold stage1_by.
    destruct (apply_prefilter listU b br (remote_prefilter a) PNone) as [iv0|x] eqn:Ep.
    2:{ exists (Err x). split; [reflexivity|]. split; [discriminate|]. intros _ _ H2. rewrite H2, prefilter_plain in Ep by exact Nb. discriminate. }
    destruct (estimate_bad b br (remote_weights a) iv0 st Nb remote_weights_some) as (x & -> & Hx).
    destruct (ia_silent a) eqn:Es.
    + eexists. split; [reflexivity|]. assert (EF : mkIres listU (NaNs (length e) (length b)) [] (NaNs (length e) (length b)) (NaNs (length b) (length br)) = failed).
      { unfold failed. rewrite Le, Lb, Lr. reflexivity. }
      rewrite EF. split; [intros y Hy; injection Hy as <-; auto|]. intros _ _ _. split; [reflexivity|discriminate].
    + exists (Err x). split; [reflexivity|]. split; [discriminate|]. intros _ _ H2. split; [discriminate|]. intros _ Hi Hr (n & Hn & Hrec). f_equal.
      rewrite H2, prefilter_plain in Ep by exact Nb. injection Ep as <-.
      assert (R1 : recorded coeffs n bs) by (intros c Hc; apply Hrec; apply in_or_app; right; apply in_or_app; auto).
      assert (R2 : recorded coeffs n rs) by (intros c Hc; apply Hrec; apply in_or_app; right; apply in_or_app; auto).
      assert (Nr : br <> []) by (intros ->; destruct rs; [apply Hr; [discriminate|reflexivity]|discriminate]).
      apply Hx; [exact Hi|reflexivity| |apply (HD b n Nb Hn (Rb n R1))].
      intros l Hl. rewrite (columns_rows br n Nr (Rr n R2)). exact (Rb n R1 l Hl).
  - injection Tr as Er. cbn [bind stage1_by].
    destruct (apply_prefilter listU e b (ia_prefilter a) PNone) as [iv0|x] eqn:Ep.
    2:{ exists (Err x). split; [reflexivity|]. split; [discriminate|]. intros _ H2 _. rewrite H2, prefilter_plain in Ep by exact Ne. discriminate. }
    destruct (estimate_bad e b (ia_weights a) iv0 st Ne Ew) as (x & -> & Hx).
    destruct (ia_silent a) eqn:Es.
    + eexists. split; [reflexivity|]. assert (EF : mkIres listU (NaNs (length e) (length b)) [] (NaNs (length e) (length b)) (NaNs (length b) 0) = failed).
      { unfold failed. rewrite Le, Lb, <- Er. reflexivity. }
      rewrite EF. split; [intros y Hy; injection Hy as <-; auto|]. intros _ _ _. split; [reflexivity|discriminate].
    + exists (Err x). split; [reflexivity|]. split; [discriminate|]. intros _ H2 _. split; [discriminate|]. intros _ Hi _ (n & Hn & Hrec). f_equal.
      rewrite H2, prefilter_plain in Ep by exact Ne. injection Ep as <-.
      assert (R1 : recorded coeffs n es) by (intros c Hc; apply Hrec; apply in_or_app; auto).
      assert (R2 : recorded coeffs n bs) by (intros c Hc; apply Hrec; apply in_or_app; right; apply in_or_app; auto).
      apply Hx; [exact Hi|reflexivity| |apply (HD e n Ne Hn (Re n R1))].
      intros l Hl. rewrite (columns_rows b n Nb (Rb n R2)). exact (Re n R1 l Hl).
Qed.

Lemma results_bad l st : exists r, impedance_results_by listU (estimate_kw listU kw) (coefficients fo) a X l st = (r, st) /\
  match r with
  | Ok out => length out = length l /\ (forall x, In x out -> all_nan x) /\ (ia_silent a = false -> forall f, In f l -> exists e, coefficients fo X f = Err e)
  | Err _ => True
  end.
Proof.
  revert st. induction l as [|f l IH]; intros st; [exists (Ok []); split; [reflexivity|split; [reflexivity|split; [intros x []|intros _ f []]]]|].
  cbn [impedance_results_by]. destruct (one_bad f st) as (r & -> & H). destruct r as [x|x]; [|exists (Err x); split; [reflexivity|exact I]].
  destruct (IH st) as (rs' & -> & H2). destruct rs' as [out|y]; [|exists (Err y); split; [reflexivity|exact I]].
  exists (Ok (x :: out)). split; [reflexivity|]. destruct H2 as (L & HA & HS). split; [cbn; f_equal; exact L|]. split.
  - intros y [<-|Hy]; [|exact (HA y Hy)]. destruct (coefficients fo X f) as [(coeffs & w)|e].
    + destruct (proj1 H x eq_refl) as (-> & _). repeat split; eexists; eexists; reflexivity.
    + injection H as ->. repeat split; eexists; eexists; reflexivity.
  - intros Es g [<-|Hg]; [|exact (HS Es g Hg)]. destruct (coefficients fo X f) as [(coeffs & w)|e]; [|eauto].
    destruct (proj1 H x eq_refl) as (_ & E). congruence.
Qed.
Lemma by_bad l : match fst (impedance_by listU (estimate_kw listU kw) (coefficients fo) a X l (fresh listW)) with
  | Ok out => length out = length l /\ (forall x, In x out -> all_nan x) /\ (ia_silent a = false -> forall f, In f l -> exists e, coefficients fo X f = Err e)
  | Err _ => True
  end.
Proof.
  unfold impedance_by. destruct (results_bad l (fresh listW)) as (r & -> & H). destruct r as [out|x]; cbn [bind fst]; [|exact I].
  destruct (stack _); cbn [bind]; [|exact I]. destruct (stack _); cbn [bind]; [|exact I]. destruct (stack _); cbn [bind]; [exact H|exact I].
Qed.
Lemma by_bad_silent l : ia_silent a = true -> ia_prefilter a = None -> remote_prefilter a = None ->
  (forall f, In f l -> exists coeffs w, coefficients fo X f = Ok (coeffs, w) /\ forall c, In c (es ++ bs ++ rs) -> c < length coeffs) ->
  fst (impedance_by listU (estimate_kw listU kw) (coefficients fo) a X l (fresh listW)) = Ok (map (fun _ => failed) l).
Proof.
  intros Es P1 P2 H. unfold impedance_by.
  assert (G : forall l st, (forall f, In f l -> exists coeffs w, coefficients fo X f = Ok (coeffs, w) /\ forall c, In c (es ++ bs ++ rs) -> c < length coeffs) ->
    impedance_results_by listU (estimate_kw listU kw) (coefficients fo) a X l st = (Ok (map (fun _ => failed) l), st)).
  { clear l H. induction l as [|f l IH]; intros st H; [reflexivity|]. cbn [impedance_results_by map].
    destruct (one_bad f st) as (r & -> & H1). destruct (H f (or_introl eq_refl)) as (coeffs & w & E & Hc). rewrite E in H1.
    destruct (proj2 H1 Hc P1 P2) as (Hr & _). rewrite (Hr Es), IH; [reflexivity|]. intros g Hg. apply H. right. exact Hg. }
  rewrite (G l _ H). cbn [bind fst]. rewrite !map_map. cbn [failed ir_z ir_err ir_T arr_shape]. rewrite !stack_const. reflexivity.
Qed.
Lemma by_bad_raises l f l' : ia_silent a = false -> ia_prefilter a = None -> remote_prefilter a = None -> ~ In "init"%string (dkeys kw) -> (remote_name a <> None -> rs <> []) ->
  (forall g, In g l -> exists e, coefficients fo X g = Err e) ->
  (exists coeffs w n, coefficients fo X f = Ok (coeffs, w) /\ 0 < n /\ recorded coeffs n (es ++ bs ++ rs)) ->
  fst (impedance_by listU (estimate_kw listU kw) (coefficients fo) a X (l ++ f :: l') (fresh listW)) = Err TypeError.
Proof.
  intros Es P1 P2 Hi Hr Hl (coeffs & w & n & E & Hn & Hrec). unfold impedance_by.
  assert (G : forall l st, (forall g, In g l -> exists e, coefficients fo X g = Err e) ->
    impedance_results_by listU (estimate_kw listU kw) (coefficients fo) a X (l ++ f :: l') st = (Err TypeError, st)).
  { clear l Hl. induction l as [|g l IH]; intros st Hl; cbn [app impedance_results_by].
    - destruct (one_bad f st) as (r & -> & H1). rewrite E in H1. destruct H1 as (_ & H1).
      assert (HC : forall c, In c (es ++ bs ++ rs) -> c < length coeffs) by (intros c Hc; destruct (Hrec c Hc) as (line & El & _); apply nth_error_Some; congruence).
      destruct (H1 HC P1 P2) as (_ & H2). rewrite H2; [reflexivity|exact Es|exact Hi|exact Hr|exists n; split; assumption].
    - destruct (one_bad g st) as (r & -> & H1). destruct (Hl g (or_introl eq_refl)) as (e & Ee'). rewrite Ee' in H1. subst r.
      rewrite IH; [reflexivity|]. intros g' Hg. apply Hl. right. exact Hg. }
  rewrite (G l _ Hl). reflexivity.
Qed.
End Misnamed.
End Whole.

Lemma misnamed_key (given : option (dict (mopt listK))) : misnamed given -> exists key, In key (dkeys (opts_given given)) /\ bad_key key.
Proof.
  intros (d & key & v & -> & H & N1 & N2). exists key. split; [|split; assumption]. unfold dkeys. apply in_map_iff. exists (key, v). auto.
Qed.
Lemma opts_exist (d : dict (mopt listK)) : NoDup (map fst d) ->
  (forall key v, In (key, v) d -> key = "tol"%string \/ key = "eps"%string -> exists x, stands_for v x) -> (forall v, In ("maxit"%string, v) d -> exists n, v = MInt n) ->
  exists o, m_opts d = Ok o.
Proof.
  intros Hp HV HM. unfold m_opts.
  assert (A : forall key default, key = "tol"%string \/ key = "eps"%string -> exists x, real_option (k := listK) default (dget key d) = Ok x).
  { intros key default Hk. destruct (dget key d) as [v|] eqn:E; [|exists default; reflexivity]. apply (dget_in key v d Hp) in E.
    destruct (HV key v E Hk) as (x & [->|(n & -> & ->)]); eexists; reflexivity. }
  destruct (A "tol"%string (ndiv (kA listK) (nofZ (kA listK) 1) (nofZ (kA listK) 100)) (or_introl eq_refl)) as (x & ->). cbn [bind].
  assert (B : exists n, int_option (k := listK) 100 (dget "maxit" d) = Ok n).
  { destruct (dget "maxit" d) as [v|] eqn:E; [|eexists; reflexivity]. apply (dget_in "maxit" v d Hp) in E. destruct (HM v E) as (n & ->). eexists; reflexivity. }
  destruct B as (n & ->). cbn [bind].
  destruct (A "eps"%string (ndiv (kA listK) (nofZ (kA listK) 1) (nofZ (kA listK) (10 ^ 14))) (or_intror eq_refl)) as (y & ->). eexists; reflexivity.
Qed.
