(** Vocabulary for the options of the estimator. *)
From Coq Require Import Reals.
From Coquelicot Require Import Complex.
From Verif Require Import Base Arith MestModel UtilsModel WholeModel OptionModel SpecOptions EstOptModel.

(** the same arguments with these options *)
Definition with_options (a : arguments) (o : opts listK) : arguments :=
  mkIargs (k := listK) (ia_weights a) (ia_prefilter a) (ia_remote a) (ia_remote_weights a) (ia_remote_prefilter a)
    (ia_elec a) (ia_mag a) o (ia_real_pb a) (ia_silent a) (ia_keep a).

Definition estimator_key (key : string) : Prop := key = "tol"%string \/ key = "maxit"%string \/ key = "eps"%string.
Definition keys_among {V} (P : string -> Prop) (given : option (list (string * V))) : Prop :=
  match given with Some d => forall key v, In (key, v) d -> P key | None => True end.
(** a float, or an int taken for one *)
Definition stands_for (v : mopt listK) (x : R) : Prop := v = MNum (k := listK) x \/ exists n, v = MInt n /\ x = IZR n.
(** a key that the estimator does not know, or which is bound already *)
Definition misnamed {V} (given : option (list (string * V))) : Prop :=
  exists d key v, given = Some d /\ In (key, v) d /\ ~ estimator_key key /\ key <> "init"%string.
(** a dictionary without the key *)
Definition without {V} (key : string) (d d' : list (string * V)) : Prop :=
  (forall k v, In (k, v) d' <-> In (k, v) d /\ k <> key) /\ NoDup (map fst d').
(** nothing but nan *)
Definition all_nan (r : result) : Prop :=
  (exists m n, ir_z listU r = NaNs m n) /\ (exists m n, ir_err listU r = NaNs m n) /\ (exists m n, ir_T listU r = NaNs m n) /\ ir_ivt listU r = [].
(** the first step is least squares *)
Definition starts_plain {W} (ws : list (option W)) : Prop := exists l, ws = None :: l.
