(** Property C121: frequencies and electric channels do not influence each other. *)
From Coq Require Import Reals List String.
From Coquelicot Require Import Complex.
From Verif Require Import Base BaseLemmas Arith TagsModel SyncModel SetModel FourierModel MestModel WeightModel RobustModel BiModel UtilsModel WholeModel
  WholeSamples SpecAlone AloneProofs AloneFreq AloneSamples.
Open Scope nat_scope.

(** ** C121: one frequency after the other, although all share the weight objects *)
(** the results are those of each frequency alone; the first frequency that raises alone
    decides the exception; otherwise only the shapes can disagree (see C109) *)
Theorem C121_frequencies : forall (fo : fopts) (a : arguments) (X : recordings) (l_freq : list R),
  weight_objects (ia_weights a) -> match ia_remote_weights a with None => True | Some l => weight_objects l end ->
  match mapM (fun f => whole_impedance fo a X [f]) l_freq with
  | Ok xs => whole_impedance fo a X l_freq = Ok (concat xs) \/ whole_impedance fo a X l_freq = Err ValueError
  | Err e => whole_impedance fo a X l_freq = Err e
  end.
Proof. exact frequencies_alone. Qed.
Print Assumptions C121_frequencies.

(** ** C121: one electric channel after the other *)
(** [ts] are tags for each of the electric channels: an estimate of all of them has
    values exactly when the estimate of each of them has, and then row [i] of the
    estimates, of the errors and of the rejected times is what channel [i] gives alone *)
Theorem C121_channels : forall (fo : fopts) (a : arguments) (X : recordings) (f : R) (es : list nat) (ts : list string),
  weight_objects (ia_weights a) -> match ia_remote_weights a with None => True | Some l => weight_objects l end ->
  t_get (ss_tags X) (ia_elec a) = Ok es -> es <> [] -> Forall2 (fun c t => t_get (ss_tags X) t = Ok [c]) es ts ->
  (forall x z, whole_impedance fo a X [f] = Ok [x] -> ir_z listU x = Values z ->
     exists err, ir_err listU x = Values err /\ length z = length es /\ length err = length es /\ length (ir_ivt listU x) = length es /\
     forall i t, nth_error ts i = Some t -> exists y zi ei mi, nth_error z i = Some zi /\ nth_error err i = Some ei /\ nth_error (ir_ivt listU x) i = Some mi /\
       whole_impedance fo (with_elec a t) X [f] = Ok [y] /\
       ir_z listU y = Values [zi] /\ ir_err listU y = Values [ei] /\ ir_ivt listU y = [mi] /\ ir_T listU y = ir_T listU x) /\
  ((forall t, In t ts -> exists y z, whole_impedance fo (with_elec a t) X [f] = Ok [y] /\ ir_z listU y = Values z) ->
   exists x z, whole_impedance fo a X [f] = Ok [x] /\ ir_z listU x = Values z).
Proof. exact channels_alone. Qed.
Print Assumptions C121_channels.

(** two electric channels, the second three times as strong *)
Example C121_example :
  (exists x, whole_impedance one_period (plain_args None) two_set [R1] = Ok [x] /\ ir_z listU x = Values [[RtoC (1 / 2)%R]; [RtoC (3 / 2)%R]]) /\
  (exists y, whole_impedance one_period (with_elec (plain_args None) "E2") two_set [R1] = Ok [y] /\ ir_z listU y = Values [[RtoC (3 / 2)%R]]) /\
  weight_objects (ia_weights (plain_args None)).
Proof.
  assert (W : weight_objects (ia_weights (plain_args None))) by (exists [None]; reflexivity).
  split; [exact two_values|]. split; [|exact W]. destruct two_values as (x & Hx & Hz).
  destruct (C121_channels one_period (plain_args None) two_set R1 [0; 2] ["E0"; "E2"]%string W I eq_refl ltac:(discriminate)
    ltac:(repeat constructor)) as (H & _).
  destruct (H x _ Hx Hz) as (err & _ & _ & _ & _ & Hi). destruct (Hi 1 "E2"%string eq_refl) as (y & zi & ei & mi & Ez & _ & _ & Hy & Hzy & _).
  exists y. split; [exact Hy|]. cbn in Ez. injection Ez as <-. exact Hzy.
Qed.
