(** Model of src/razorback/utils.py:395-417 [transfer_function_real_prob] with the
    estimation of FullModel.v. Real arrays are complex ones here, with zero imaginary
    parts: [H] leaves them unchanged and the formulas are the same. *)
From Coq Require Import Reals.
From Coquelicot Require Import Complex.
From mathcomp Require Import all_ssreflect all_algebra.
From Verif Require Import WlseModel CField EvenOdd.
From Verif Require Import Base Arith MestModel WeightModel RobustModel BiModel FullModel RealPbModel.
Set Implicit Arguments.
Unset Strict Implicit.
Unset Printing Implicit Defensive.
Local Open Scope ring_scope.

(** mestimator.py:111 [inputs.T], for [q] inputs of [n] values *)
Definition rows_of (q n : nat) (inputs : list (list C)) : list 'rV[C]_q :=
  List.map (fun t => \row_(j < q) List.nth t (List.nth j inputs []) (RtoC 0)) (List.seq 0 n).

(** utils.py:405-411: a line of [outputs]; the assignments to [new_line[0::2]] and
    [new_line[1::2]] repeat a single value and reject other lengths *)
Definition new_line (n : nat) (line : list C) : res (list C) :=
  if Nat.eqb (List.length line) n then Ok (List.map RtoC (real_line line))
  else match line with
       | [c] => Ok (List.map RtoC (real_line (repeat c n)))
       | _ => Err ValueError
       end.

(** utils.py:415: [new_z[..., 0::2] + 1j * new_z[..., 1::2]] for one row of [new_z].
    Without weights there is no estimate and the product with None raises TypeError
    (with a single output numpy returns an empty array instead) *)
Definition new_estimate q (r : option 'cV[C]_(2 * q) * list Z) : res ('cV[C]_q * list Z) :=
  match fst r with
  | Some z => Ok (\col_j (z (ord_even j) 0 + Ci * z (ord_odd j) 0), snd r)
  | None => Err TypeError
  end.

(** utils.py:395-417 [transfer_function_real_prob]; [np.shape(inputs)] has two
    entries for a non-empty list of lines of the same length only *)
Definition real_prob (St : Type) (inputs : list (list C)) (o : opts (fullK (2 * List.length inputs))) (outputs : list (list C))
    (ws : list (option (wfun (fullK (2 * List.length inputs)) St))) (init : option (list (option 'cV[C]_(2 * List.length inputs))))
    (iv : ivarg) (st : St) : res (list ('cV[C]_(List.length inputs) * list Z)) * St :=
  let q := List.length inputs in
  let n := match inputs with [] => O | line :: _ => List.length line end in
  match bind (check (negb (Nat.eqb q 0) && List.forallb (fun line => Nat.eqb (List.length line) n) inputs) ValueError)
             (fun _ => mapM (new_line n) outputs) with
  | Err x => (Err x, st)
  | Ok new_out =>
      let new_in := List.map (List.map RtoC) (real_inputs inputs) in
      let '(r, st) := transfer_function (k := fullK (2 * q)) o new_out (rows_of (2 * q) (2 * n) new_in) ws init iv st in
      (bind r (mapM (@new_estimate q)), st)
  end.
