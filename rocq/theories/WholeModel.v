(** The estimate of utils.py:61-296 with nothing left open: from the samples of the
    recordings, real numbers, through the Fourier coefficients of FourierModel.v, the
    complex estimation of FullModel.v and the stages of UtilsModel.v to the transfer
    functions and their errors, in exact arithmetic and for any number of channels.
    Not modelled: a calibration of value 0 (numpy gives infinities and nan). *)
From Coq Require Import Reals.
From Coquelicot Require Import Complex.
From mathcomp Require Import all_ssreflect all_algebra.
From Verif Require Import WlseModel CField.
From Verif Require Import Base Arith TagsModel SyncModel SetModel FourierModel MestModel WeightModel RobustModel BiModel FullModel PrefilterModel UtilsModel.
Set Implicit Arguments.
Unset Strict Implicit.
Unset Printing Implicit Defensive.
Local Open Scope ring_scope.

(** ** Rows and estimates as lists.
    The number of inputs is the width of the rows; a matrix without rows counts as one
    of width 1, its normal equations are singular as for every other width. *)
Definition width (b : list (list C)) : nat := size (seq.head [:: RtoC 0] b).
Definition row_of q (r : list C) : 'rV[C]_q := \row_j seq.nth 0 r j.
Definition column_of q (z : list C) : 'cV[C]_q := \col_j seq.nth 0 z j.
Definition values q (z : 'cV[C]_q) : list C := [seq z j 0 | j <- fintype.enum 'I_q].
Definition mx_rows q (b : list (list C)) : list 'rV[C]_q := List.map (row_of q) b.

(** mestimator.py:284-305 [wlse] *)
Definition l_wlse (e : list C) (b : list (list C)) (w : option (list ext)) : res (list C) :=
  bind (full_wlse e (mx_rows (width b) b) w) (fun z => Ok (values z)).
(** mestimator.py:233 *)
Definition l_resid (e : list C) (b : list (list C)) (z : list C) : list (option C) :=
  full_resid e (mx_rows (width b) b) (column_of (width b) z).
(** weights.py:116-117 *)
Definition l_quad (b : list (list C)) (w : option (list ext)) : res (list ext) := full_quad (mx_rows (width b) b) w.

Definition listK : Kern := realK C (list C) (list C) l_wlse l_resid full_wres.
Definition listW : WK listK := realW C (list C) (list C) l_wlse l_resid full_wres l_quad width.

(** ** Arrays of channels *)
Definition entry (ll : list (list C)) (i t : nat) : C := seq.nth 0 (seq.nth [::] ll i) t.
(** the number of columns of an array of channels of one length *)
Definition columns_of (ll : list (list C)) : nat := size (seq.head [::] ll).

(** [np.transpose(inputs)] *)
Definition l_rows (inputs : list (list C)) : list (list C) :=
  [seq [seq seq.nth 0 line t | line <- inputs] | t <- iota 0 (columns_of inputs)].

(** utils.py:245 [T.dot(br)] *)
Definition l_dot (T br : list (list C)) : list (list C) :=
  [seq [seq \sum_(j < size br) seq.nth 0 row j * entry br j t | t <- iota 0 (columns_of br)] | row <- T].

(** mestimator.py:39 [inputs.dot(inputs.conj().T)] *)
Definition l_gram (inputs : list (list C)) : 'M[C]_(size inputs) :=
  \matrix_(i, j) \sum_(t < columns_of inputs) entry inputs i t * cjC (entry inputs j t).

(** mestimator.py:42-44: the norm of the residual of one output *)
Definition l_nres (inputs : list (list C)) (line row : list C) : R :=
  sqrt (\big[Rplus/R0]_(t < size line) Rmult (Cmod (seq.nth 0 line t - \sum_(j < size inputs) seq.nth 0 row j * entry inputs j t))
                                         (Cmod (seq.nth 0 line t - \sum_(j < size inputs) seq.nth 0 row j * entry inputs j t))).

(** mestimator.py:21-48 [transfer_error]: LinAlgError for a singular matrix, which it
    is with fewer columns than inputs (the square root of line 37 is nan then). The
    assertions on the shapes hold for what [impedance] passes. *)
Definition l_error (outputs inputs transfer : list (list C)) (ivs : list (list Z)) : res (list (list ext)) :=
  let n := INR (columns_of outputs) in
  let r := Rdiv (sqrt (Rminus n (INR (size inputs)))) n in
  if l_gram inputs \in unitmx then
    Ok [seq [seq xmul (xdiv (xdiv (Fin (l_nres inputs p.1.1 p.1.2)) (Fin r)) (Fin (Rminus n (INR (size p.2)))))
                      (Fin (sqrt (Cmod (invmx (l_gram inputs) j j)))) | j <- fintype.enum 'I_(size inputs)]
       | p <- zip (zip outputs transfer) ivs]
  else Err LinAlgError.

Definition listU : UK listK := mkUK listK l_rows l_dot (list (list ext)) l_error size (fun err => (size err, size (seq.head [::] err))).

(** ** The determination filter *)
(** prefilters.py:45 [norm2] *)
Definition energy_of (e : list C) : R := fold_right Rplus R0 (List.map (fun x => Rmult (Cmod x) (Cmod x)) e).
(** prefilters.py:39-47, one block of rows; [None] is nan, the value for an output that
    is 0 everywhere *)
Definition l_cod (e : list C) (b : list (list C)) : res (option R) :=
  bind (l_wlse e b None) (fun z =>
  let r := fold_right Rplus R0 (List.map square (l_resid e b z)) in
  Ok (if Req_EM_T (energy_of e) R0 then None else Some (sqrt (Rminus R1 (Rdiv r (energy_of e)))))).
(** comparison of numbers of numpy: false with nan *)
Definition r_ltb (x y : option R) : bool :=
  match x, y with Some x, Some y => if Rlt_dec x y then true else false | _, _ => false end.
(** prefilters.py:16-24 [cod_filter(cod_min, cod_max, size)] *)
Definition l_cod_filter (cod_min cod_max : R) (size : nat) : @prefilter listK :=
  cod_filter (Some R0) r_ltb l_cod (Some cod_min) (Some cod_max) size.

(** ** From the samples to the coefficients *)
(** fourier_transform.py:72-73: entry [n] of [exp((-1j*2*pi*nf)*arange(Lw)) * (2/Lw)] *)
Definition r_tone (nf : R) (L n : nat) : C :=
  let t := Ropp (Rmult (Rmult (Rmult 2 PI) nf) (INR n)) in Cmult (cos t, sin t) (RtoC (Rdiv 2 (INR L))).
(** [dot] of a complex vector and real samples *)
Definition r_dot (x : list C) (y : list R) : C := fold_right (fun p acc => Cplus (Cmult p.1 (RtoC p.2)) acc) (RtoC R0) (combine x y).

(** a calibration: its value at a frequency, if it has one *)
Definition calibration : Type := R -> res (option C).
Definition recordings : Type := @sigset RA R calibration.
(** [fourier_opts]: the number of periods, the overlap and the window *)
Record fopts : Type := mkFopts { fo_nper : R; fo_overlap : R; fo_window : window_arg C }.

(** signalset.py:558-606 *)
Definition coefficients (fo : fopts) (X : recordings) (f : R) : res (list (list C) * windows) :=
  set_fourier (A := RA) r_tone Cmult r_dot (fun k : calibration => k) Cdiv X f (fo_nper fo) (fo_overlap fo) (fo_window fo).

(** the arguments of [impedance], with weights of weights.py *)
Definition arguments : Type := @iargs listK (heap listW).
Definition result : Type := @ires listK listU.
(** utils.py:124-186 [impedance], with new weight objects *)
Definition whole_impedance (fo : fopts) (a : arguments) (X : recordings) (l_freq : list R) : res (list result) :=
  fst (impedance listU (coefficients fo) a X l_freq (fresh listW)).
