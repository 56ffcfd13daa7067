(** Properties C115 and C116: complete estimates, from recordings to results. *)
From Coq Require Import Reals List String.
From Coquelicot Require Import Complex.
From Verif Require Import Base BaseLemmas Arith TagsModel SyncModel SetModel FourierModel MestModel WeightModel RobustModel BiModel FullModel PrefilterModel
  UtilsModel SpecUtils WholeModel SpecWhole SpecRemote WholeChange WholeCod WholeExact WholeSamples.
Open Scope nat_scope.

(** ** C115: least squares with remote reference is not biased by local noise *)
Theorem C115_remote : forall (fo : fopts) (a : arguments) (X : recordings) (l_freq : list R) (z : R -> list (list C)) (es bs rs : list nat) (r : string),
  least_squares a -> t_get (ss_tags X) (ia_elec a) = Ok es -> t_get (ss_tags X) (ia_mag a) = Ok bs ->
  remote_name a = Some r -> t_get (ss_tags X) r = Ok rs -> es <> [] -> bs <> [] ->
  (forall f, In f l_freq -> exists coeffs w n, coefficients fo X f = Ok (coeffs, w) /\ 0 < n /\
     recorded coeffs n (es ++ bs ++ rs) /\ separate coeffs n rs /\ sees coeffs n rs bs /\ related coeffs n es bs rs (z f)) ->
  exists out, whole_impedance fo a X l_freq = Ok out /\ length out = length l_freq /\
    forall i f x, nth_error l_freq i = Some f -> nth_error out i = Some x -> ir_z listU x = Values (z f) /\ ir_ivt listU x = repeat [] (length es) /\
      forall coeffs w n T, coefficients fo X f = Ok (coeffs, w) -> recorded coeffs n es -> related coeffs n bs rs rs T -> ir_T listU x = Values T.
Proof. exact whole_remote. Qed.
Print Assumptions C115_remote.

Theorem C115_local : forall (fo : fopts) (a : arguments) (X : recordings) (l_freq : list R) (z : R -> list (list C)) (es bs : list nat),
  least_squares a -> t_get (ss_tags X) (ia_elec a) = Ok es -> t_get (ss_tags X) (ia_mag a) = Ok bs ->
  remote_name a = None -> es <> [] -> bs <> [] ->
  (forall f, In f l_freq -> exists coeffs w n, coefficients fo X f = Ok (coeffs, w) /\ 0 < n /\
     recorded coeffs n (es ++ bs) /\ separate coeffs n bs /\ related coeffs n es bs bs (z f)) ->
  exists out, whole_impedance fo a X l_freq = Ok out /\ length out = length l_freq /\
    forall i f x, nth_error l_freq i = Some f -> nth_error out i = Some x -> ir_z listU x = Values (z f) /\ ir_ivt listU x = repeat [] (length es).
Proof. exact whole_local. Qed.
Print Assumptions C115_local.

(** the recordings of the example: the remote reference gives the transfer function 1,
    the estimate without it is 1/2 because of the noise of the magnetic channel *)
Example C115_example : exists x, whole_impedance one_period (plain_args (Some "R"%string)) plain_set [R1] = Ok [x] /\ ir_z listU x = Values [[RtoC 1]].
Proof.
  destruct (C115_remote one_period (plain_args (Some "R"%string)) plain_set [R1] (fun _ => [[RtoC 1]]) [0] [1] [2] "R"%string) as (out & E & L & H);
    try reflexivity; try discriminate.
  - repeat (split; [first [reflexivity|exact I]|]); reflexivity.
  - intros f [<-|[]]. exists three, ([2], [4], [4]), 2. split; [exact plain_coeffs|]. split; [repeat constructor|].
    split; [apply three_recorded; intros c [<-|[<-|[<-|[]]]]; repeat constructor|].
    split; [exact three_separate2|]. split; [exact three_sees|exact three_remote].
  - destruct out as [|x [|y out]]; try discriminate. exists x. split; [exact E|]. apply (H 0 R1 x eq_refl eq_refl).
Qed.
Theorem C115_local_bias_refuted : exists x, whole_impedance one_period (plain_args None) plain_set [R1] = Ok [x] /\ ir_z listU x = Values [[RtoC (1 / 2)%R]].
Proof.
  destruct (C115_local one_period (plain_args None) plain_set [R1] (fun _ => [[RtoC (1 / 2)%R]]) [0] [1]) as (out & E & L & H);
    try reflexivity; try discriminate.
  - repeat (split; [first [reflexivity|exact I]|]); reflexivity.
  - intros f [<-|[]]. exists three, ([2], [4], [4]), 2. split; [exact plain_coeffs|]. split; [repeat constructor|].
    split; [apply three_recorded; intros c [<-|[<-|[]]]; repeat constructor|].
    split; [exact three_separate1|exact three_local].
  - destruct out as [|x [|y out]]; try discriminate. exists x. split; [exact E|]. apply (H 0 R1 x eq_refl eq_refl).
Qed.
Print Assumptions C115_local_bias_refuted.

(** ** C116: other units of the channels *)
Theorem C116_units : forall (fo : fopts) (a : arguments) (X X' : recordings) (d : R -> nat -> C) (es bs rs : list nat),
  library (ia_weights a) -> (match ia_remote_weights a with None => True | Some l => library l end) ->
  unit_free (ia_prefilter a) -> unit_free (ia_remote_prefilter a) ->
  (forall f c, d f c <> RtoC 0) ->
  t_get (ss_tags X) (ia_elec a) = Ok es -> t_get (ss_tags X) (ia_mag a) = Ok bs ->
  (match remote_name a with None => rs = [] | Some r => t_get (ss_tags X) r = Ok rs end) ->
  forall l_freq, (forall f, In f l_freq -> recordings_changed f (d f) X X') ->
  match whole_impedance fo a X l_freq, whole_impedance fo a X' l_freq with
  | Ok out, Ok out' => length out = length l_freq /\ length out' = length l_freq /\
      forall i f x x', nth_error l_freq i = Some f -> nth_error out i = Some x -> nth_error out' i = Some x' -> result_changed (d f) es bs rs x x'
  | Err x, Err x' => x = x'
  | _, _ => False
  end.
Proof. exact whole_changed. Qed.
Print Assumptions C116_units.

(** the determination filter is such a prefilter *)
Theorem C116_filter : forall cod_min cod_max size, unit_free (Some (l_cod_filter cod_min cod_max size)).
Proof. exact filter_unit_free. Qed.
Print Assumptions C116_filter.

(** the magnetic channel of the example in other units, with another calibration: the
    transfer function is divided by 3 *)
Example C116_example : exists x, whole_impedance one_period (plain_args (Some "R"%string)) other_set [R1] = Ok [x] /\
  ir_z listU x = Values [[Cmult (Cdiv (RtoC 1) (RtoC 3)) (RtoC 1)]].
Proof.
  destruct C115_example as (x & E & Z).
  pose proof (C116_units one_period (plain_args (Some "R"%string)) plain_set other_set factor [0] [1] [2]) as H.
  assert (L : library (ia_weights (plain_args (Some "R"%string)))) by (exists [None]; split; [reflexivity|repeat constructor]).
  specialize (H L I I I factor_nz eq_refl eq_refl eq_refl [R1] (fun f _ => other_changed f)).
  rewrite E in H. destruct (whole_impedance one_period (plain_args (Some "R"%string)) other_set [R1]) as [out|]; [|contradiction].
  destruct H as (_ & L2 & H). destruct out as [|x' [|y out]]; try discriminate. exists x'. split; [reflexivity|].
  destruct (H 0 R1 x x' eq_refl eq_refl eq_refl) as (Hz & _). rewrite Z in Hz. destruct (ir_z listU x') as [t|]; [|contradiction].
  destruct Hz as (Lt & Ht). destruct (Ht 0 _ eq_refl) as (row & Hr & Lr & Hx). specialize (Hx 0 _ eq_refl).
  destruct t as [|r0 [|r1 t]]; try discriminate. injection Hr as ->. destruct row as [|c0 [|c1 row]]; try discriminate.
  injection Hx as ->. reflexivity.
Qed.
