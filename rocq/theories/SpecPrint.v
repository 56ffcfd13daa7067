(** Specification vocabulary for the printed lines. *)
From Verif Require Import Base Arith TagsModel SetModel FourierModel MestModel UtilsModel SpecUtils PrintModel.

(** the frequencies, the exceptions and the numbers of steps in an output *)
Definition started {F} (o : list (line F)) : list F := flat_map (fun l => match l with Starting f => [f] | _ => [] end) o.
Definition reported {F} (o : list (line F)) : list exn := flat_map (fun l => match l with Failed x => [x] | _ => [] end) o.
Definition progress {F} (o : list (line F)) : list (nat * nat) := flat_map (fun l => match l with Percent d t => [(d, t)] | _ => [] end) o.

Section Stages.
Context {k : Kern} (U : UK k) {V K St : Type}.
Implicit Types (a : @iargs k St) (X : @sigset (kA k) V K) (coeffs : list (list (kE k))).

(** an estimation raises [x], after its prefilter; with [real_pb] it always does *)
Definition raises a (outputs inputs : list (list (kE k))) (ws : list (option (wfun k St))) (pf : option (@prefilter k)) (iv : pidx) (st : St) (x : exn) : Prop :=
  exists ivs, apply_prefilter U outputs inputs pf iv = Ok ivs /\
    if ia_real_pb a then x = TypeError
    else exists st', transfer_function (ia_opts a) outputs (u_rows k U inputs) ws None (IvEach ivs) st = (Err x, st').

(** the transfer from the remote to the magnetic channels fails *)
Definition first_raises a X coeffs (st : St) (x : exn) : Prop :=
  exists es e bs b rn rs br ws pf,
    t_get (ss_tags X) (ia_elec a) = Ok es /\ columns coeffs es e /\ t_get (ss_tags X) (ia_mag a) = Ok bs /\ columns coeffs bs b /\
    with_remote (ia_remote a) rn /\ t_get (ss_tags X) rn = Ok rs /\ columns coeffs rs br /\
    list_or (ia_remote_weights a) (ia_weights a) ws /\ or_else (ia_remote_prefilter a) (ia_prefilter a) pf /\
    raises a b br ws pf PNone st x.
(** the transfer to the electric channels fails *)
Definition last_raises a X coeffs (st : St) (x : exn) : Prop :=
  (ia_real_pb a = true -> no_remote (ia_remote a)) /\
  exists e inputs given st1, last_stage U a X coeffs st e inputs given st1 /\ raises a e inputs (ia_weights a) (ia_prefilter a) given st1 x.

(** the tags that name the channels exist *)
Definition tags_known a X : Prop :=
  (exists es, t_get (ss_tags X) (ia_elec a) = Ok es) /\ (exists bs, t_get (ss_tags X) (ia_mag a) = Ok bs) /\
  forall rn, with_remote (ia_remote a) rn -> exists rs, t_get (ss_tags X) rn = Ok rs.

(** the result [r] of a frequency [f] and the lines printed for it: an estimate, or nan
    because there are no Fourier coefficients, and no exception is shown; or nan and the
    exception *)
Definition told (fourier : @sigset (kA k) V K -> num (kA k) -> res (list (list (kE k)) * windows)) a X (f : num (kA k)) (r : ires U) (o : list (line (num (kA k)))) : Prop :=
  (o = [Starting f] /\ exists z err, ir_z U r = Values z /\ ir_err U r = Values err) \/
  (o = [Starting f] /\ (exists x, fourier X f = Err x) /\ exists n m, ir_z U r = NaNs n m) \/
  (ia_silent a = true /\ (exists c, fourier X f = Ok c) /\ (exists n m, ir_z U r = NaNs n m) /\ exists x, o = [Starting f; Failed x]).
End Stages.

(** [stepwise l n i o j]: the output [o] of the steps from [i] to [j - 1], of [n]: each one
    announces its number, then all the frequencies of [l] in their order *)
Inductive stepwise {F} (l : list F) (n : nat) : nat -> list (line F) -> nat -> Prop :=
| no_step : forall i, stepwise l n i [] i
| one_step : forall i b o j, progress b = [] -> started b = l -> stepwise l n (S i) o j -> stepwise l n i (Percent i n :: b ++ o) j.
(** the same when the step [j] is not finished *)
Definition interrupted {F} (l : list F) (n : nat) (o : list (line F)) : Prop :=
  exists j o1 o2, j <= n /\ stepwise l n 0 o1 j /\ o = o1 ++ o2 /\
    (o2 = [] \/ exists b rest, j < n /\ o2 = Percent j n :: b /\ progress b = [] /\ l = started b ++ rest).
