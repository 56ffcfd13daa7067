(** Vocabulary for complete estimates from recordings. *)
From Coq Require Import Reals.
From Coquelicot Require Import Complex.
From mathcomp Require Import all_ssreflect all_algebra.
From Verif Require Import CField.
From Verif Require Import Base Arith TagsModel SyncModel SetModel FourierModel MestModel SpecMest WeightModel RobustModel BiModel SpecFull UtilsModel SpecUtils WholeModel.
Set Implicit Arguments.
Unset Strict Implicit.
Unset Printing Implicit Defensive.
Import GRing.Theory.
Local Open Scope ring_scope.

(** ** Other units *)
(** the samples are multiplied by [a] and the calibration goes from [v] to [v'] at the
    frequency [f], so that the calibrated values are multiplied by [d] *)
Definition channel_changed (f : R) (d : C) (y y' : list R) (k k' : calibration) : Prop :=
  exists (a : R) (v v' : C), k f = Ok (Some v) /\ k' f = Ok (Some v') /\ v <> RtoC 0 /\ v' <> RtoC 0 /\
    y' = List.map (Rmult a) y /\ Cdiv (RtoC a) v' = Cdiv d v.
(** the same times; every channel [c] is changed by the factor [d c] *)
Definition run_changed (f : R) (d : nat -> C) (s s' : sync RA R calibration) : Prop :=
  s_rate s' = s_rate s /\ s_start s' = s_start s /\
  List.length (s_cal s) = List.length (s_data s) /\ List.length (s_cal s') = List.length (s_data s') /\ List.length (s_data s') = List.length (s_data s) /\
  forall c y y' k k', nth_error (s_data s) c = Some y -> nth_error (s_data s') c = Some y' ->
    nth_error (s_cal s) c = Some k -> nth_error (s_cal s') c = Some k' -> channel_changed f (d c) y y' k k'.
Definition recordings_changed (f : R) (d : nat -> C) (X X' : recordings) : Prop :=
  ss_tags X' = ss_tags X /\ List.Forall2 (run_changed f d) (ss_signals X) (ss_signals X').

(** [t'] is the table [t] with the entries [x] of row [i] and column [j] replaced by
    [g i j x] *)
Definition entrywise {T} (g : nat -> nat -> T -> T) (t t' : list (list T)) : Prop :=
  List.length t' = List.length t /\
  forall i row, nth_error t i = Some row -> exists row', nth_error t' i = Some row' /\ List.length row' = List.length row /\
    forall j x, nth_error row j = Some x -> nth_error row' j = Some (g i j x).
Definition arr_changed {T} (R : T -> T -> Prop) (x x' : arr T) : Prop :=
  match x, x' with
  | Values t, Values t' => R t t'
  | NaNs n m, NaNs n' m' => n' = n /\ m' = m
  | _, _ => False
  end.
(** the factor of the channel number [i] of a tag *)
Definition unit_of (d : nat -> C) (idx : list nat) (i : nat) : C := match nth_error idx i with Some c => d c | None => RtoC 1 end.
(** estimates in row [i] and column [j] are multiplied by the factor of output [i] over
    that of input [j], errors by its modulus; the rejected windows are the same *)
Definition result_changed (d : nat -> C) (es bs rs : list nat) (r r' : result) : Prop :=
  arr_changed (entrywise (fun i j x => Cmult (Cdiv (unit_of d es i) (unit_of d bs j)) x)) (ir_z listU r) (ir_z listU r') /\
  arr_changed (entrywise (fun i j x => xmul (Fin (Rdiv (Cmod (unit_of d es i)) (Cmod (unit_of d bs j)))) x)) (ir_err listU r) (ir_err listU r') /\
  arr_changed (entrywise (fun i j x => Cmult (Cdiv (unit_of d bs i) (unit_of d rs j)) x)) (ir_T listU r) (ir_T listU r') /\
  ir_ivt listU r' = ir_ivt listU r.

(** weights of the library, and prefilters that do not depend on units *)
Definition library (ws : list (option (wfun listK (heap listW)))) : Prop :=
  exists l, ws = weightings listW l /\ List.Forall (fun w => match w with Some w => of_library w = true | None => True end) l.
Definition unit_free (pf : option (@prefilter listK)) : Prop :=
  match pf with
  | None => True
  | Some p => forall c (d : nat -> C) (line : list C) (rows rows' : list (list C)), c <> RtoC 0 -> (forall j, d j <> RtoC 0) ->
      entrywise (fun i j x => Cmult (d j) x) rows rows' -> p (List.map (Cmult c) line) rows' = p line rows
  end.

(** ** Least squares: no weight functions, no prefilters *)
Definition least_squares (a : arguments) : Prop :=
  ia_weights a = [:: None] /\ (match ia_remote_weights a with None => True | Some l => l = [::] \/ l = [:: None] end) /\
  ia_prefilter a = None /\ ia_remote_prefilter a = None /\ ia_real_pb a = false.
