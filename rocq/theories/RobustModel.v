(** The formulas of src/razorback/weights.py over the real numbers: no rounding,
    but the special values of floating-point arithmetic. A zero divisor counts as
    [+0], which is what the magnitudes and scales below are. *)
From Coq Require Import Reals.
From Coquelicot Require Import Complex.
From Verif Require Import Base.
Open Scope R_scope.

(** floating-point results *)
Inductive ext : Type := Fin (x : R) | PInf | NInf | NaN.

(** an infinity with the sign of [s], not a number when [s] is zero *)
Definition infinite (s : R) : ext := if Rlt_dec 0 s then PInf else if Rlt_dec s 0 then NInf else NaN.

Definition xneg (a : ext) : ext := match a with Fin x => Fin (- x) | PInf => NInf | NInf => PInf | NaN => NaN end.
Definition xsub (a b : ext) : ext :=
  match a, b with
  | Fin x, Fin y => Fin (x - y)
  | NaN, _ | _, NaN => NaN
  | PInf, PInf | NInf, NInf => NaN
  | PInf, _ | _, NInf => PInf
  | NInf, _ | _, PInf => NInf
  end.
Definition xmul (a b : ext) : ext :=
  match a, b with
  | Fin x, Fin y => Fin (x * y)
  | NaN, _ | _, NaN => NaN
  | Fin x, PInf | PInf, Fin x => infinite x
  | Fin x, NInf | NInf, Fin x => infinite (- x)
  | PInf, PInf | NInf, NInf => PInf
  | PInf, NInf | NInf, PInf => NInf
  end.
Definition xdiv (a b : ext) : ext :=
  match a, b with
  | Fin x, Fin y => if Req_EM_T y 0 then infinite x else Fin (x / y)
  | NaN, _ | _, NaN => NaN
  | Fin _, (PInf | NInf) => Fin 0
  | PInf, Fin y => if Req_EM_T y 0 then PInf else infinite y
  | NInf, Fin y => if Req_EM_T y 0 then NInf else infinite (- y)
  | (PInf | NInf), (PInf | NInf) => NaN
  end.
(** numpy's exp and log *)
Definition xexp (a : ext) : ext := match a with Fin x => Fin (exp x) | PInf => PInf | NInf => Fin 0 | NaN => NaN end.
Definition xlog (a : ext) : ext :=
  match a with
  | Fin x => if Rlt_dec 0 x then Fin (ln x) else if Req_EM_T x 0 then NInf else NaN
  | PInf => PInf
  | NInf | NaN => NaN
  end.
(** [np.minimum(1, a)] *)
Definition xmin1 (a : ext) : ext := match a with Fin x => Fin (Rmin 1 x) | PInf => Fin 1 | NInf => NInf | NaN => NaN end.

(** a real number or nan *)
Definition of_opt (x : option R) : ext := match x with Some x => Fin x | None => NaN end.

Definition Rltb (x y : R) : bool := if Rlt_dec x y then true else false.
Definition somes {A} (l : list (option A)) : list A := flat_map (fun x => match x with Some x => [x] | None => [] end) l.

(** numpy's nanmedian: the middle of the sorted numbers, or the mean of the two
    middle ones; nan if there is none *)
Definition nanmedian (l : list (option R)) : option R :=
  let s := stable_sort Rltb (somes l) in
  let n := length s in
  match n with
  | O => None
  | _ => if Nat.even n then Some ((nth (Nat.div2 n - 1) s 0 + nth (Nat.div2 n) s 0) / 2)
         else Some (nth (Nat.div2 n) s 0)
  end.

(** weights.py:156-162 [median_absolute_deviation], of absolute values *)
Definition median_absolute_deviation (l : list (option R)) : option R :=
  match nanmedian l with
  | None => None
  | Some med => nanmedian (map (option_map (fun x => Rabs (x - med))) l)
  end.

(** weights.py:150-153 [mad_scale] with [is_absolute=True] *)
Definition sigma_mad : R := 44845 / 100000.
Definition mad_scale (l : list (option R)) : option R := option_map (fun m => m / sigma_mad) (median_absolute_deviation l).

(** weights.py:165-169 [expexp] *)
Definition expexp (x a : ext) : ext :=
  let c := xexp (xneg (xmul a a)) in
  xexp (xsub c (xexp (xmul a (xsub x a)))).

(** weights.py:179-202 [vnorm] of a vector of complex numbers; [None] is nan *)
Definition vnorm (residual : list (option C)) : list (option R) := map (option_map Cmod) residual.

(** weights.py:52-57 [Huber.__call__] *)
Definition huber (alpha : R) (residual : list (option C)) : list ext :=
  let x := vnorm residual in
  let scale := mad_scale x in
  map (fun x => xmin1 (xdiv (xmul (Fin alpha) (of_opt scale)) (of_opt x))) x.

(** weights.py:72-74: the threshold of Thomson *)
Definition thomson_xi (xi : option R) (n : nat) : R := match xi with Some xi => xi | None => sqrt (2 * ln (2 * INR n)) end.
(** weights.py:71-82 [Thomson.__call__]; the scale is that of the residual at the
    first iteration, then the stored one (see WeightModel.v) *)
Definition thomson (xi : option R) (scale : option R) (residual : list (option C)) : list ext :=
  map (fun x => expexp (xdiv (of_opt x) (of_opt scale)) (Fin (thomson_xi xi (length residual)))) (vnorm residual).

(** weights.py:119-120: the factor of a row of normalised leverage [y] *)
Definition hat_factor (lower khi y : R) : ext := xmul (expexp (Fin y) (Fin khi)) (expexp (xlog (Fin y)) (xlog (Fin lower))).
