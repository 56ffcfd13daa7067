(** Property C122: the Fourier options of an estimate. *)
From Coq Require Import Reals List String Lra.
From Coquelicot Require Import Complex.
From Verif Require Import Base BaseLemmas Arith TagsModel SyncModel SetModel FourierModel MestModel WeightModel RobustModel BiModel UtilsModel SpecUtils WholeModel
  WholeSamples OptionModel SpecOptions OptionProofs.

(** C122: options given replace the defaults 8, 0.71 and slepian_window(4), the others
    keep them; the order of the dictionary does not matter. *)
Theorem C122_values :
  forall (slepian4 : window_arg C) (given : option (list (string * optv))) (n ov : R) (w : window_arg C) (a : arguments) (X : recordings) (l_freq : list R),
  proper given -> only_known given ->
  chosen given "Nper" (ONum (IZR 8)) (ONum n) -> chosen given "overlap" (ONum (Rdiv (IZR 71) (IZR 100))) (ONum ov) ->
  chosen given "window" (OWin slepian4) (OWin w) ->
  impedance_kw slepian4 given a X l_freq = whole_impedance (mkFopts n ov w) a X l_freq.
Proof. intros s g n ov w a X l H. apply kw_values. exact H. Qed.
Print Assumptions C122_values.

(** C122: with an unknown option or one of a wrong kind, nothing is raised, even
    without silent_fail: every frequency gives nan arrays. *)
Theorem C122_unusable :
  forall (slepian4 : window_arg C) (given : option (list (string * optv))) (a : arguments) (X : recordings) (l_freq : list R) (es bs rs : list nat),
  proper given -> unusable given ->
  t_get (ss_tags X) (ia_elec a) = Ok es -> t_get (ss_tags X) (ia_mag a) = Ok bs ->
  match remote_name a with None => Ok [] | Some r => t_get (ss_tags X) r end = Ok rs ->
  impedance_kw slepian4 given a X l_freq =
  Ok (map (fun _ => mkIres listU (NaNs (List.length bs) (List.length es)) [] (NaNs (List.length bs) (List.length es)) (NaNs (List.length bs) (List.length rs))) l_freq).
Proof. intros s g a X l es bs rs H. apply kw_nan. exact H. Qed.
Print Assumptions C122_unusable.

(** C122: fourier_coefficients of a signal set itself has no defaults. *)
Theorem C122_call : forall (kw : list (string * optv)) (X : recordings) (f : R), NoDup (map fst kw) ->
  (forall n ov w, In ("Nper"%string, ONum n) kw -> In ("overlap"%string, ONum ov) kw -> In ("window"%string, OWin w) kw -> only_known (Some kw) ->
     coefficients_kw kw X f = coefficients (mkFopts n ov w) X f) /\
  (forall k, k = "Nper"%string \/ k = "overlap"%string \/ k = "window"%string -> (forall v, ~ In (k, v) kw) -> coefficients_kw kw X f = Err TypeError) /\
  (forall k v, k = "self"%string \/ k = "freq"%string -> In (k, v) kw -> coefficients_kw kw X f = Err TypeError) /\
  (forall k v s runs, In (k, v) kw -> ~ known_key k -> ss_signals X = s :: runs -> (forall c, In c (s_cal s) -> exists x, c f = Ok (Some x)) ->
     coefficients_kw kw X f = Err TypeError) /\
  (unusable (Some kw) -> exists x, coefficients_kw kw X f = Err x).
Proof. exact call_values. Qed.
Print Assumptions C122_call.

(** C122: compute_prefilter raises TypeError whatever it is given: it adds two views of
    dictionaries. *)
Theorem C122_compute_prefilter :
  forall (slepian4 : window_arg C) (B : Type) (rest : list (string * optv) -> res B) (given : option (list (string * optv))),
  compute_prefilter slepian4 rest given = Err TypeError.
Proof. reflexivity. Qed.
Print Assumptions C122_compute_prefilter.

(** one window of one period is given in this order; the estimate of the recordings
    of WholeSamples.v is then the one computed there, and with a misspelt name it is
    nan although silent_fail is false *)
Definition loud_args : arguments :=
  mkIargs (k := listK) (St := heap listW) [None] None None None None "E" "B" (mkOpts listK (1 / 1000 : R) 100%Z (1 / 1000 : R)) false false true.
Example C122_example : let given := [("overlap"%string, ONum 0); ("window"%string, OWin (WNone (C := C))); ("compute"%string, OOther); ("Nper"%string, ONum 1)] in
  let misspelt := [("nper"%string, ONum 1)] in
  proper (Some given) /\ only_known (Some given) /\ proper (Some misspelt) /\ unusable (Some misspelt) /\
  (forall s, impedance_kw s (Some given) loud_args plain_set [R1] = whole_impedance one_period loud_args plain_set [R1]) /\
  (forall s, impedance_kw s (Some misspelt) loud_args plain_set [R1] = Ok [mkIres listU (NaNs 1 1) [] (NaNs 1 1) (NaNs 1 0)]).
Proof.
  intros given misspelt.
  assert (P1 : proper (Some given)) by (cbn; repeat (constructor; [cbn; intuition discriminate|]); constructor).
  assert (K1 : only_known (Some given)) by (cbn; unfold known_key; intros k v H; repeat (destruct H as [H|H]; [injection H as <- _; auto|]); destruct H).
  assert (P2 : proper (Some misspelt)) by (cbn; repeat (constructor; [cbn; intuition discriminate|]); constructor).
  assert (U : unusable (Some misspelt)).
  { exists misspelt, "nper"%string, (ONum 1). split; [reflexivity|]. split; [left; reflexivity|]. left. intros [H|[H|[H|H]]]; discriminate. }
  split; [exact P1|]. split; [exact K1|]. split; [exact P2|]. split; [exact U|]. split; intros s.
  - apply C122_values; [exact P1|exact K1| | |]; left; cbn; auto 6.
  - apply (C122_unusable s (Some misspelt) loud_args plain_set [R1] [0%nat] [1%nat] [] P2 U); reflexivity.
Qed.
(** the same options given to the method itself; without the window, and with a
    misspelt name, it raises TypeError *)
Example C122_call_example : let kw := [("overlap"%string, ONum 0); ("window"%string, OWin (WNone (C := C))); ("Nper"%string, ONum 1)] in
  coefficients_kw kw plain_set 1 = coefficients one_period plain_set 1 /\
  coefficients_kw [("overlap"%string, ONum 0); ("Nper"%string, ONum 1)] plain_set 1 = Err TypeError /\
  coefficients_kw (("padding"%string, ONum 1) :: kw) plain_set 1 = Err TypeError.
Proof.
  intros kw.
  assert (P1 : NoDup (map fst kw)) by (cbn; repeat (constructor; [cbn; intuition discriminate|]); constructor).
  assert (P2 : NoDup (map fst (("padding"%string, ONum 1) :: kw))) by (cbn; repeat (constructor; [cbn; intuition discriminate|]); constructor).
  assert (P3 : NoDup (map fst [("overlap"%string, ONum 0); ("Nper"%string, ONum 1)])) by (cbn; repeat (constructor; [cbn; intuition discriminate|]); constructor).
  split; [|split].
  - apply (C122_call kw plain_set 1 P1); cbn; auto. unfold known_key. intros k v H; repeat (destruct H as [H|H]; [injection H as <- _; auto|]); destruct H.
  - destruct (C122_call _ plain_set 1 P3) as (_ & H & _). apply (H "window"%string); [auto|]. cbn. intros v [E|[E|[]]]; discriminate.
  - destruct (C122_call _ plain_set 1 P2) as (_ & _ & _ & H & _). eapply (H "padding"%string); [left; reflexivity| |reflexivity|].
    + intros [E|[E|[E|E]]]; discriminate.
    + cbn. intros c [<-|[<-|[<-|[]]]]; eexists; reflexivity.
Qed.
