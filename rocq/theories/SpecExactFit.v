(** Vocabulary for robust estimates of channels that follow others without noise. *)
From Coq Require Import Reals.
From Coquelicot Require Import Complex.
From Verif Require Import Base Arith TagsModel SetModel FourierModel MestModel WeightModel BiModel SpecFull UtilsModel SpecUtils WholeModel SpecRemote.
Open Scope nat_scope.

(** least squares first, then a weight of the library, then anything *)
Definition robust (ws : list (option (wfun listK (heap listW)))) : Prop :=
  exists w l, of_library w = true /\ ws = weightings listW (None :: Some w :: l).
(** channel number [i] of [es] is the same combination of the channels [bs] in all [n] windows *)
Definition follows (coeffs : list (list C)) (n : nat) (es bs : list nat) (i : nat) : Prop :=
  exists v, forall t, t < n -> channel coeffs es i t = combination coeffs v bs t.
(** the result of a failure: arrays of nan of these shapes, no rejected windows *)
Definition nan_result (ne nb nr : nat) : result := mkIres listU (NaNs ne nb) [] (NaNs ne nb) (NaNs nb nr).

(** the first estimation made by [impedance]: the magnetic channels from the remote ones
    or, without a remote reference, the electric channels from the magnetic ones. No
    prefilters; empty remote weights count as none. *)
Definition first_estimation (a : arguments) (X : recordings) (es bs rs outs ins : list nat) (ws : list (option (wfun listK (heap listW)))) : Prop :=
  t_get (ss_tags X) (ia_elec a) = Ok es /\ t_get (ss_tags X) (ia_mag a) = Ok bs /\ ia_prefilter a = None /\
  match ia_remote a with
  | None => rs = [] /\ outs = es /\ ins = bs /\ ws = ia_weights a
  | Some r => r <> ""%string /\ t_get (ss_tags X) r = Ok rs /\ ia_remote_prefilter a = None /\ outs = bs /\ ins = rs /\
      (ia_remote_weights a = Some ws /\ ws <> [] \/ (ia_remote_weights a = None \/ ia_remote_weights a = Some []) /\ ws = ia_weights a)
  end.
(** at the frequency [f], output number [i] follows the inputs, none of which is a
    combination of the others *)
Definition exact_fit (fo : fopts) (X : recordings) (f : R) (channels outs ins : list nat) (i : nat) : Prop :=
  exists coeffs w n, coefficients fo X f = Ok (coeffs, w) /\ 0 < n /\ recorded coeffs n channels /\
    separate coeffs n ins /\ i < length outs /\ follows coeffs n outs ins i.
