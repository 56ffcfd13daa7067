(** Model of the Fourier options of an estimate as Python dictionaries:
    src/razorback/utils.py:162-164, 226, 420-425, with the calls that receive them
    (signalset.py:558-597, 830-870, fourier_transform.py:24). *)
From Coq Require Import Reals.
From Coquelicot Require Import Complex.
From Verif Require Import Base Arith TagsModel SyncModel SetModel FourierModel MestModel WeightModel RobustModel BiModel UtilsModel WholeModel.

(** ** Calls [f(x1, .., xn, **kw)] *)
(** the parameters of a function, with whether they have a default value, and whether
    it takes other keywords *)
Record signature : Type := mkSig { sg_params : list (string * bool); sg_rest : bool }.
Definition named (k : string) (l : list string) : bool := memb String.eqb k l.
(** the parameters bound by keywords and the other keywords; TypeError for a parameter
    given twice, an unknown keyword, a missing parameter *)
Definition py_call {V} (s : signature) (npos : nat) (kw : dict V) : res (dict V * dict V) :=
  let taken := map fst (firstn npos (sg_params s)) in
  let free := skipn npos (sg_params s) in
  _ <- check (forallb (fun k => negb (named k taken)) (dkeys kw)) TypeError ;;
  let '(bound, rest) := partition (fun kv => named (fst kv) (map fst free)) kw in
  _ <- check (sg_rest s || (length rest =? 0)) TypeError ;;
  _ <- check (forallb (fun p => snd p || named (fst p) (dkeys bound)) free) TypeError ;;
  Ok (bound, rest).

Open Scope string_scope.
(** signalset.py:558 and 830 *)
Definition sig_method : signature :=
  mkSig [("self", false); ("freq", false); ("Nper", false); ("overlap", false); ("window", false)] true.
(** fourier_transform.py:24 *)
Definition sig_time_to_freq : signature :=
  mkSig [("data", false); ("sampling_freq", false); ("freq", false); ("Nper", false); ("overlap", false); ("window", true); ("compute", true)] false.
Close Scope string_scope.

(** ** Options *)
(** numbers, windows, and other objects, which no option but [compute] can be. Not
    modelled: with a false [compute] the arrays stay lazy, their values are the same. *)
Inductive optv : Type := ONum (x : R) | OWin (w : window_arg C) | OOther.

Section Options.
(** [slepian_window(4)] *)
Variable slepian4 : window_arg C.
(** utils.py:162; [8] and [.71] *)
Definition defaults : dict optv := [("Nper"%string, ONum (IZR 8)); ("overlap"%string, ONum (Rdiv (IZR 71) (IZR 100))); ("window"%string, OWin slepian4)].
(** [dict(items)]: the last value of a key counts *)
Definition dict_of {V} (items : list (string * V)) : dict V := fold_left (fun d kv => dset (fst kv) (snd kv) d) items [].
(** utils.py:163-164 *)
Definition given_or_empty (given : option (dict optv)) : dict optv := match given with Some d => d | None => [] end.
Definition merged_options (given : option (dict optv)) : dict optv := dict_of (defaults ++ given_or_empty given).

(** the values of the parameters: an object of another kind makes the computation fail.
    Simplification: always with TypeError (AttributeError and AssertionError are possible). *)
Definition number (o : option optv) : res R := match o with Some (ONum x) => Ok x | _ => Err TypeError end.
Definition a_window (o : option optv) : res (window_arg C) := match o with Some (OWin w) => Ok w | _ => Err TypeError end.
Definition options_of (bound : dict optv) : res fopts :=
  n <- number (dget "Nper" bound) ;; ov <- number (dget "overlap" bound) ;; w <- a_window (dget "window" bound) ;; Ok (mkFopts n ov w).

(** [data.fourier_coefficients(freq, **fourier_opts)]: keywords that the methods do
    not know go down to [time_to_freq], after the calibrations of the run
    (signalset.py:865-866). The runs get the same keywords, so they reach
    [time_to_freq] for every run or fail in the first one; without runs nothing is
    unpacked (signalset.py:595). *)
Definition coefficients_kw (kw : dict optv) (X : recordings) (f : R) : res (list (list C) * windows) :=
  ' (bound, rest) <- py_call sig_method 2 kw ;;
  match ss_signals X with
  | [] => Err ValueError
  | s :: _ =>
      ' (_, rest) <- py_call sig_method 5 rest ;;
      calibrations <- mapM (fun k : calibration => k f) (s_cal s) ;;
      _ <- mapM (of_option AssertionError) calibrations ;;
      ' (_, _) <- py_call sig_time_to_freq 6 rest ;;
      fo <- options_of bound ;;
      coefficients fo X f
  end.

(** utils.py:124-186 [impedance] with [fourier_opts] as given *)
Definition impedance_kw (given : option (dict optv)) (a : arguments) (X : recordings) (l_freq : list R) : res (list result) :=
  fst (impedance listU (coefficients_kw (merged_options given)) a X l_freq (fresh listW)).

(** ** utils.py:420-442 [compute_prefilter] *)
(** the operands of [+] here: views [d.items()], lists *)
Inductive pyitems : Type := View (l : list (string * optv)) | AList (l : list (string * optv)).
Definition py_add (x y : pyitems) : res (list (string * optv)) :=
  match x, y with AList l, AList l' => Ok (l ++ l') | _, _ => Err TypeError end.
(** utils.py:423-425, then lines 427-442, which get the options *)
Definition compute_prefilter {B} (rest : dict optv -> res B) (given : option (dict optv)) : res B :=
  items <- py_add (View defaults) (View (given_or_empty given)) ;; rest (dict_of items).
End Options.
