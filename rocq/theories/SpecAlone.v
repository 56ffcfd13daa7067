(** Vocabulary for estimates of one electric channel. *)
From Coq Require Import Reals.
From Verif Require Import Base MestModel WeightModel UtilsModel WholeModel.

(** the arguments of an estimate, with another tag for the electric channels *)
Definition with_elec (a : arguments) (t : string) : arguments :=
  mkIargs (ia_weights a) (ia_prefilter a) (ia_remote a) (ia_remote_weights a) (ia_remote_prefilter a) t (ia_mag a) (ia_opts a) (ia_real_pb a) (ia_silent a) (ia_keep a).
(** the weights are objects of weights.py, of any classes *)
Definition weight_objects (ws : list (option (wfun listK (heap listW)))) : Prop := exists l, ws = weightings listW l.
