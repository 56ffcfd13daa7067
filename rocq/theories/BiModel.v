(** The weight objects of src/razorback/weights.py with the formulas of
    RobustModel.v: real numbers, special values, complex residuals. *)
From Coq Require Import Reals.
From Coquelicot Require Import Complex.
From Verif Require Import Base Arith MestModel WeightModel RobustModel.
Open Scope R_scope.

Definition Rleb (x y : R) : bool := if Rle_dec x y then true else false.
Definition Reqb (x y : R) : bool := if Req_EM_T x y then true else false.
(** exact real arithmetic; [Int_part] is the floor *)
Definition RA : Arith := {|
  num := R;
  nadd := Rplus; nsub := Rminus; nmul := Rmult; ndiv := Rdiv; nabs := Rabs;
  nleb := Rleb; nltb := Rltb; neqb := Reqb;
  nzero := 0; n1 := 1; nofZ := IZR;
  nfloor := fun x => Ok (Int_part x);
  nceil := fun x => Ok (- Int_part (- x))%Z;
  nfinite := fun _ => true;
  nrtol := 1 / 100000;
  natol := 1 / 100000000
|}.

Definition xadd (a b : ext) : ext := xsub a (xneg b).
(** [np.sum] *)
Definition xsum (l : list ext) : ext := fold_left xadd l (Fin 0).

(** product of two arrays of the same length, row by row *)
Definition map2 {A B C} (f : A -> B -> C) (l : list A) (l' : list B) : list C := map (fun p => f (fst p) (snd p)) (combine l l').

(** weights.py:119-120: the next hat weight of a row of normalised leverage [y] *)
Definition hat_next (lower khi : R) (hat y : ext) : ext :=
  xmul (xmul hat (expexp y (Fin khi))) (expexp (xlog y) (xlog (Fin lower))).

Section Real.
(** an entry of [e], a row of [b], an estimate; the least-square estimate, the
    residual and its weighted norm *)
Variables (E B Z' : Type) (solve : list E -> list B -> option (list ext) -> res Z') (residual : list E -> list B -> Z' -> list (option C))
  (wnorm : list (option C) -> option (list ext) -> R).
(** weights.py:116-117: [np.sum(linalg.solve(A, H(b)) * b.T, axis=0).real] for the
    matrix [A] of the rows [b] with the given weights, the scalar 1 being [None];
    it raises for a singular matrix and for weights that are not finite *)
Variable quad : list B -> option (list ext) -> res (list ext).
(** the number of columns of [b] *)
Variable cols : list B -> nat.

(** mestimator.py:249-255: [np.isclose(0, w, 0, eps)] is [abs(w) <= eps], false for
    nan and infinities *)
Definition realK : Kern := {|
  kA := RA; kE := E; kB := B; kZ := Z'; kW := ext; kR := option C;
  k_wlse := solve; k_resid := residual; k_wres := wnorm;
  k_nan := None; k_zero := Fin 0; k_one := Fin 1;
  k_small := fun eps w => match w with Fin x => Rleb (Rabs x) eps | _ => false end
|}.

(** weights.py:115-126, from the matrix to the next weights, trace and hat weights *)
Definition bi_formula (lower khi : R) (b : list B) (p : biprev (list ext) (list ext) ext) (w : list ext) : res (list ext * ext * list ext) :=
  q <- quad b (bi_weight p) ;;
  let h := match bi_weight p with None => map (xmul (Fin 1)) q | Some pw => map2 xmul pw q end in
  let y := map (fun h => xdiv (xmul (bi_trace p) h) (Fin (INR (cols b)))) h in
  let hat := match bi_hat p with None => map (hat_next lower khi (Fin 1)) y | Some ph => map2 (hat_next lower khi) ph y end in
  let biw := map2 xmul w hat in
  Ok (biw, xsum biw, hat).

(** the formulas of Huber and Thomson are those of RobustModel.v *)
Definition realW : WK realK := mkWK realK (option R)
  (fun r => mad_scale (vnorm r))
  (fun alpha scale r => map (fun x => xmin1 (xdiv (xmul (Fin alpha) (of_opt scale)) (of_opt x))) (vnorm r))
  (fun n => thomson_xi None n)
  (fun xi scale r => thomson (Some xi) scale r)
  (list ext) ext
  (fun n => Fin (INR n))
  bi_formula.
End Real.
