(** Model of src/razorback/fourier_transform.py (lines 24-108; the
    Slepian window is not modelled) and of the [fourier_coefficients] methods of
    src/razorback/signalset.py.

    Samples [V], complex numbers [C] and the numeric kernels are parameters:
    - [tone nf Lw n] is the entry [n] of [exp(-1j*2*pi*nf*arange(Lw))*(2/Lw)];
    - [cmul] the product with the window, [cdot] numpy's dot product of a
      vector of coefficients with a window of samples;
    - [calib k f] the value of a calibration function ([None] for Python's None).
    SpecFourier.v instantiates them with exact complex numbers.
    Simplifications: arrays are lists; dask's laziness and chunking and the
    [compute] flag are not modelled. *)
From Verif Require Import Base Arith TagsModel SyncModel SetModel.

Section Window.
Context {A : Arith}.

(** the constant [.5] *)
Definition nhalf : num A := ndiv A (n1 A) (nofZ A 2).

(** Python's [int(x)] on a float: truncation towards zero *)
Definition ntrunc (x : num A) : res Z := if nltb A x (nzero A) then nceil A x else nfloor A x.

(** fourier_transform.py:87-108 [discrete_window]; [nf] is [normalized_freq].
    [size - Lw] is a numpy float, so [divmod] by a zero shift gives -inf, nan
    or inf, and the error comes from the test or from [int(Nw)].
    The quotient of two integers is computed in Z (exact below 2^53). *)
Definition discrete_window (size : nat) (nf Nper overlap : num A) : res (Z * Z * Z) :=
  _ <- check (nleb A (nzero A) overlap && nleb A overlap (n1 A)) AssertionError ;;
  _ <- check (nltb A (nzero A) nf && nleb A nf nhalf) AssertionError ;;
  Lw <- nceil A (ndiv A Nper nf) ;;
  shift <- ntrunc (nmul A (nofZ A Lw) (nsub A (n1 A) overlap)) ;;
  let num := (Z.of_nat size - Lw)%Z in
  if (shift =? 0)%Z then
    (if (0 <? num)%Z then Err OverflowError else Err ValueError)
  else
    let Nw := (num / shift)%Z in
    if (Nw <? 1)%Z then Err ValueError else Ok (Nw, Lw, shift).

End Window.

(** [zip(ll_0, ll_1, ...)]: stops with the shortest *)
Fixpoint min_len {T} (ll : list (list T)) : nat :=
  match ll with
  | [] => 0
  | l :: ll' => match ll' with [] => length l | _ => Nat.min (length l) (min_len ll') end
  end.
Definition pyzip {T} (ll : list (list T)) : list (list T) :=
  map (fun j => flat_map (fun l => match nth_error l j with Some x => [x] | None => [] end) ll) (seq 0 (min_len ll)).

Section Fourier.
Context {A : Arith} {V K C : Type}.
Variables (tone : num A -> nat -> nat -> C) (cmul : C -> C -> C) (cdot : list C -> list V -> C).
Variables (calib : K -> num A -> res (option C)) (cdiv : C -> C -> C).

(** the [window] argument: None, an array or a callable *)
Inductive window_arg : Type :=
| WNone
| WArray (w : list C)
| WFun (f : nat -> res (list C)).

(** fourier_transform.py:63-65 *)
Definition eval_window (w : window_arg) (Lw : nat) : res (option (list C)) :=
  o <- match w with
       | WNone => Ok None
       | WArray w => Ok (Some w)
       | WFun f => w <- f Lw ;; Ok (Some w)
       end ;;
  _ <- check (match o with None => true | Some w => length w =? Lw end) AssertionError ;;
  Ok o.

(** fourier_transform.py:72-75: the vector [x], times the window *)
Definition kernel (nf : num A) (Lw : nat) (w : option (list C)) : list C :=
  let x := map (tone nf Lw) (seq 0 Lw) in
  match w with
  | None => x
  | Some w => map (fun p => cmul (fst p) (snd p)) (combine x w)
  end.

(** dask's [sliding_window_view(y, Lw)] *)
Definition sliding_window_view (y : list V) (Lw : Z) : res (list (list V)) :=
  if ((Lw <? 0) || (Z.of_nat (length y) <? Lw))%Z then Err ValueError
  else let L := Z.to_nat Lw in
       Ok (map (fun i => firstn L (skipn i y)) (seq 0 (length y - L + 1))).

(** fourier_transform.py:67-71 and 76: one channel *)
Definition channel_coeffs (x : list C) (Lw shift : Z) (y : list V) : res (list C) :=
  view <- sliding_window_view y Lw ;;
  rows <- py_slice view (mkSlice None None (Some shift)) ;;
  Ok (map (cdot x) rows).

(** fourier_transform.py:24-84 [time_to_freq]. [np.true_divide] by zero gives
    inf or nan, which fail the test of [discrete_window]. *)
Definition time_to_freq (data : list (list V)) (sampling_freq freq Nper overlap : num A) (window : window_arg) :
    res (list (list C) * (nat * nat * nat)) :=
  Ntot <- match dedup Nat.eqb (map (@length V) data) with [n] => Ok n | _ => Err AssertionError end ;;
  _ <- check (negb (neqb A sampling_freq (nzero A))) AssertionError ;;
  let nf := ndiv A freq sampling_freq in
  '(_, Lw, shift) <- discrete_window Ntot nf Nper overlap ;;
  w <- eval_window window (Z.to_nat Lw) ;;
  result <- mapM (channel_coeffs (kernel nf (Z.to_nat Lw) w) Lw shift) data ;;
  Nw <- match dedup Nat.eqb (map (@length C) result) with [n] => Ok n | _ => Err AssertionError end ;;
  Ok (result, (Nw, Z.to_nat Lw, Z.to_nat shift)).

(** signalset.py:830-872 [SyncSignal.fourier_coefficients] *)
Definition sync_fourier (s : sync A V K) (freq Nper overlap : num A) (window : window_arg) :
    res (list (list C) * (nat * nat * nat)) :=
  calibrations <- mapM (fun k => calib k freq) (s_cal s) ;;
  cals <- mapM (of_option AssertionError) calibrations ;;
  '(coeffs, w) <- time_to_freq (s_data s) (s_rate s) freq Nper overlap window ;;
  Ok (map (fun p => map (fun c => cdiv c (snd p)) (fst p)) (combine coeffs cals), w).

(** signalset.py:558-606 [SignalSet.fourier_coefficients]; unpacking the empty
    zip raises ValueError *)
Definition set_fourier (X : @sigset A V K) (freq Nper overlap : num A) (window : window_arg) :
    res (list (list C) * (list nat * list nat * list nat)) :=
  l <- mapM (fun s => sync_fourier s freq Nper overlap window) (ss_signals X) ;;
  match l with
  | [] => Err ValueError
  | _ => let wd := map snd l in
         Ok (map (@concat C) (pyzip (map fst l)),
             (map (fun w => fst (fst w)) wd, map (fun w => snd (fst w)) wd, map snd wd))
  end.

End Fourier.
Arguments window_arg : clear implicits.
Arguments window_arg C : assert.
