(** Property C124: the options of the estimator. *)
From Coq Require Import Reals List String Lra Lia.
From Coquelicot Require Import Complex.
From Verif Require Import Base BaseLemmas Arith TagsModel SyncModel SetModel FourierModel MestModel WeightModel RobustModel BiModel UtilsModel WholeModel
  OptionModel SpecOptions SpecRemote EstOptModel SpecEstOpt EstOptProofs WholeSamples.
Open Scope nat_scope.

(** C124: tol, maxit and eps replace 0.01, 100 and 1e-14 in both stages, in any order. *)
Theorem C124_values : forall (fo : fopts) (a : arguments) (X : recordings) (given : option (list (string * mopt listK)))
    (vt ve : mopt listK) (tol : R) (maxit : Z) (eps : R) (l_freq : list R),
  proper given -> keys_among estimator_key given ->
  chosen given "tol" (MNum (k := listK) (Rdiv 1 100)) vt -> stands_for vt tol ->
  chosen given "maxit" (MInt 100) (MInt maxit) ->
  chosen given "eps" (MNum (k := listK) (Rdiv 1 (IZR (10 ^ 14)))) ve -> stands_for ve eps ->
  impedance_mest fo given a X l_freq = whole_impedance fo (with_options a (mkOpts listK tol maxit eps)) X l_freq.
Proof. exact mest_values. Qed.
Print Assumptions C124_values.

(** C124: with any other name but init, whatever does not raise is nan, and without
    silent_fail only if there are no Fourier coefficients at all. *)
Theorem C124_misnamed : forall (fo : fopts) (a : arguments) (X : recordings) (given : option (list (string * mopt listK))) (es bs rs : list nat) (l_freq : list R),
  misnamed given -> t_get (ss_tags X) (ia_elec a) = Ok es -> t_get (ss_tags X) (ia_mag a) = Ok bs ->
  match remote_name a with None => Ok [] | Some r => t_get (ss_tags X) r end = Ok rs -> es <> [] -> bs <> [] -> ia_weights a <> [] ->
  match impedance_mest fo given a X l_freq with
  | Ok out => length out = length l_freq /\ (forall x, In x out -> all_nan x) /\
      (ia_silent a = false -> forall f, In f l_freq -> exists e, coefficients fo X f = Err e)
  | Err _ => True
  end.
Proof. intros fo a X given es bs rs l H. destruct (misnamed_key given H) as (key & Hk & Hb). intros. eapply by_bad; eassumption. Qed.
Print Assumptions C124_misnamed.

(** C124: by default such a name is silent. *)
Theorem C124_misnamed_silent : forall (fo : fopts) (a : arguments) (X : recordings) (given : option (list (string * mopt listK))) (es bs rs : list nat) (l_freq : list R),
  misnamed given -> t_get (ss_tags X) (ia_elec a) = Ok es -> t_get (ss_tags X) (ia_mag a) = Ok bs ->
  match remote_name a with None => Ok [] | Some r => t_get (ss_tags X) r end = Ok rs -> es <> [] -> bs <> [] -> ia_weights a <> [] ->
  ia_silent a = true -> ia_prefilter a = None -> remote_prefilter a = None ->
  (forall f, In f l_freq -> exists coeffs w, coefficients fo X f = Ok (coeffs, w) /\ forall c, In c (es ++ bs ++ rs) -> c < length coeffs) ->
  impedance_mest fo given a X l_freq =
  Ok (map (fun _ => mkIres listU (NaNs (length es) (length bs)) [] (NaNs (length es) (length bs)) (NaNs (length bs) (length rs))) l_freq).
Proof. intros fo a X given es bs rs l H. destruct (misnamed_key given H) as (key & Hk & Hb). intros. eapply by_bad_silent; eassumption. Qed.
Print Assumptions C124_misnamed_silent.

(** C124: with silent_fail=False it raises TypeError at the first frequency that has
    Fourier coefficients. *)
Theorem C124_misnamed_raises : forall (fo : fopts) (a : arguments) (X : recordings) (given : option (list (string * mopt listK))) (es bs rs : list nat)
    (before after : list R) (f : R),
  misnamed given -> t_get (ss_tags X) (ia_elec a) = Ok es -> t_get (ss_tags X) (ia_mag a) = Ok bs ->
  match remote_name a with None => Ok [] | Some r => t_get (ss_tags X) r end = Ok rs -> es <> [] -> bs <> [] -> ia_weights a <> [] ->
  ia_silent a = false -> ia_prefilter a = None -> remote_prefilter a = None ->
  keys_among (fun key => key <> "init"%string) given -> (remote_name a <> None -> rs <> []) ->
  (forall g, In g before -> exists e, coefficients fo X g = Err e) ->
  (exists coeffs w n, coefficients fo X f = Ok (coeffs, w) /\ 0 < n /\ recorded coeffs n (es ++ bs ++ rs)) ->
  impedance_mest fo given a X (before ++ f :: after) = Err TypeError.
Proof.
  intros fo a X given es bs rs l l' f H. destruct (misnamed_key given H) as (key & Hk & Hb). intros. eapply by_bad_raises; try eassumption.
  intros Hi. match goal with K : keys_among _ given |- _ => exact (keys_given _ _ K _ Hi eq_refl) end.
Qed.
Print Assumptions C124_misnamed_raises.

(** C124: an initial estimate of the right size makes no difference when the first step
    is least squares. *)
Theorem C124_init : forall (fo : fopts) (a : arguments) (X : recordings) (d d' : list (string * mopt listK)) (rows : list (option (list C))) (es bs : list nat) (l_freq : list R),
  NoDup (map fst d) -> keys_among (fun key => estimator_key key \/ key = "init"%string) (Some d) -> In ("init"%string, MInit (k := listK) rows) d -> without "init" d d' ->
  (forall key v, In (key, v) d -> key = "tol"%string \/ key = "eps"%string -> exists x, stands_for v x) -> (forall v, In ("maxit"%string, v) d -> exists n, v = MInt n) ->
  t_get (ss_tags X) (ia_elec a) = Ok es -> t_get (ss_tags X) (ia_mag a) = Ok bs ->
  starts_plain (ia_weights a) -> starts_plain (remote_weights a) -> length rows = length es -> (remote_name a <> None -> length rows = length bs) ->
  impedance_mest fo (Some d) a X l_freq = impedance_mest fo (Some d') a X l_freq.
Proof.
  intros fo a X d d' rows es bs l Hp HK Hi Hw HV HM. apply mest_init with (rows := rows); try assumption.
  exact (opts_exist d Hp HV HM).
Qed.
Print Assumptions C124_init.

(** the least-squares estimate of WholeSamples.v: with other options, and with a
    misspelt one, silently or not *)
Definition mest_args (silent : bool) : arguments :=
  mkIargs (k := listK) (St := heap listW) [None] None None None None "E" "B" (mkOpts listK (0%R : num RA) 0%Z (0%R : num RA)) false silent true.
Example C124_example : let given := [("maxit"%string, MInt 7); ("eps"%string, MInt 0)] in let misspelt := [("tolerance"%string, MNum (k := listK) 1%R)] in
  impedance_mest one_period (Some given) (mest_args true) plain_set [R1] =
    whole_impedance one_period (with_options (mest_args true) (mkOpts listK (Rdiv 1 100) 7 0%R)) plain_set [R1] /\
  impedance_mest one_period (Some misspelt) (mest_args true) plain_set [R1] = Ok [mkIres listU (NaNs 1 1) [] (NaNs 1 1) (NaNs 1 0)] /\
  impedance_mest one_period (Some misspelt) (mest_args false) plain_set [R1] = Err TypeError /\
  impedance_mest one_period (Some (("init"%string, MInit (k := listK) [Some [RtoC 5]]) :: given)) (mest_args true) plain_set [R1] =
    impedance_mest one_period (Some given) (mest_args true) plain_set [R1].
Proof.
  intros given misspelt.
  assert (M : misnamed (Some misspelt)).
  { exists misspelt, "tolerance"%string, (MNum (k := listK) 1%R). split; [reflexivity|]. split; [left; reflexivity|]. split; [intros [H|[H|H]]; discriminate|discriminate]. }
  assert (P : NoDup (map fst given)) by (cbn; repeat (constructor; [cbn; intuition discriminate|]); constructor).
  split; [|split; [|split]].
  - apply (C124_values one_period (mest_args true) plain_set (Some given) (MNum (k := listK) (Rdiv 1 100)) (MInt 0)).
    + exact P.
    + intros key v [H|[H|[]]]; injection H as <- _; unfold estimator_key; auto.
    + right. split; [|reflexivity]. intros v [H|[H|[]]]; discriminate.
    + left. reflexivity.
    + left. left. reflexivity.
    + left. right. left. reflexivity.
    + right. exists 0%Z. auto.
  - apply (C124_misnamed_silent one_period (mest_args true) plain_set (Some misspelt) [0] [1] []); try reflexivity; try discriminate; try exact M.
    intros f [<-|[]]. exists three, ([2], [4], [4]). split; [exact plain_coeffs|]. intros c [<-|[<-|[]]]; cbn; lia.
  - apply (C124_misnamed_raises one_period (mest_args false) plain_set (Some misspelt) [0] [1] [] [] [] R1); try reflexivity; try discriminate; try exact M.
    + intros key v [H|[]]. injection H as <- _. discriminate.
    + intros H. exfalso. apply H. reflexivity.
    + intros g [].
    + exists three, ([2], [4], [4]), 2. split; [exact plain_coeffs|]. split; [lia|]. apply three_recorded. intros c [<-|[<-|[]]]; lia.
  - apply (C124_init one_period (mest_args true) plain_set _ given [Some [RtoC 5]] [0] [1]); try reflexivity.
    + cbn. repeat (constructor; [cbn; intuition discriminate|]). constructor.
    + intros key v [H|[H|[H|[]]]]; injection H as <- _; unfold estimator_key; auto.
    + left. reflexivity.
    + split; [|exact P]. intros key v. split.
      * intros H. split; [right; exact H|]. destruct H as [H|[H|[]]]; injection H as <- _; discriminate.
      * intros ([H|H] & N); [injection H as <- _; congruence|exact H].
    + intros key v [H|[H|[H|[]]]]; injection H as <- <-; intros [E|E]; try discriminate. exists 0%R. right. exists 0%Z. auto.
    + intros v [H|[H|[H|[]]]]; try discriminate. injection H as <-. exists 7%Z. reflexivity.
    + exists []. reflexivity.
    + exists []. reflexivity.
Qed.
