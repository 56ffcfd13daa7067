(** Model of the real formulation of a complex transfer problem,
    src/razorback/utils.py:395-417 [transfer_function_real_prob], without the
    estimation itself. *)
From Coq Require Import Reals.
From Coquelicot Require Import Complex.
From Verif Require Import Base.
Open Scope R_scope.

(** utils.py:407-409: an output line, [new_line[0::2]] real and [new_line[1::2]] imaginary parts *)
Definition real_line (line : list C) : list R := flat_map (fun c => [Re c; Im c]) line.

(** utils.py:398-403: the rows of [new_in]; [new_in[1::2]] holds minus the imaginary
    parts at even and the real parts at odd positions *)
Definition real_inputs (inputs : list (list C)) : list (list R) :=
  flat_map (fun row => [flat_map (fun c => [Re c; Im c]) row; flat_map (fun c => [- Im c; Re c]) row]) inputs.

(** utils.py:415: [new_z[..., 0::2] + 1j * new_z[..., 1::2]] for one row of [new_z];
    numpy requires as many even as odd positions *)
Fixpoint decode (z : list R) : list C :=
  match z with
  | a :: b :: z => (a, b) :: decode z
  | _ => []
  end.
