(** Vocabulary for recordings of one frequency. *)
From Coq Require Import Reals.
From Coquelicot Require Import Complex.
From Verif Require Import Base BaseLemmas Arith SyncModel SetModel FourierModel BiModel WholeModel SpecRemote.
Open Scope nat_scope.

(** [exp(1j * t)] *)
Definition turn (t : R) : C := (cos t, sin t).
(** sample [n] of [y] is the real part of [amp * exp(1j * 2 * pi * nf * n)] *)
Definition oscillates (amp : C) (nf : R) (y : list R) : Prop :=
  forall n x, nth_error y n = Some x -> x = fst (Cmult amp (turn (2 * PI * nf * INR n))).

Section Field.
(** the amplitude of the field seen by channel [c], at the start of run [r] *)
Variables (f : R) (field : nat -> nat -> C) (X : recordings).
(** the instrument of each channel of each run multiplies the field by its calibration *)
Definition sinusoidal (channels : list nat) : Prop :=
  forall r s c, nth_error (ss_signals X) r = Some s -> In c channels -> exists y k v,
    nth_error (s_data s) c = Some y /\ nth_error (s_cal s) c = Some k /\ k f = Ok (Some v) /\ v <> RtoC 0 /\
    oscillates (Cmult v (field r c)) (f / s_rate s)%R y.
(** windows of the lengths [Ls] hold a whole number of periods, below the Nyquist frequency *)
Definition whole_periods (Ls : list nat) : Prop :=
  forall r s L, nth_error (ss_signals X) r = Some s -> nth_error Ls r = Some L ->
    (f / s_rate s < 1 / 2)%R /\ exists m : Z, (INR L * (f / s_rate s))%R = IZR m.
(** the values of a window of [L] samples *)
Definition window_values (w : window_arg C) (L : nat) (v : list C) : Prop :=
  match w with
  | WNone => v = repeat (RtoC 1) L
  | WArray a => v = a
  | WFun g => g L = Ok v
  end.
(** the windows let nothing through at twice the frequency, and they do let the mean through *)
Definition no_leak (w : window_arg C) (Ls : list nat) : Prop :=
  forall r s L, nth_error (ss_signals X) r = Some s -> nth_error Ls r = Some L -> exists v, window_values w L v /\
    csum L (fun n => Cmult (nth n v (RtoC 0)) (turn (- (2 * (2 * PI * (f / s_rate s)) * INR n)))) = RtoC 0 /\
    csum L (fun n => nth n v (RtoC 0)) <> RtoC 0.
(** the electric field is the magnetic field times [z] in every run *)
Definition transferred (es bs : list nat) (z : list (list C)) : Prop :=
  table es bs z /\ forall r i, r < length (ss_signals X) -> i < length es ->
    field r (nth i es 0) = csum (length bs) (fun j => Cmult (nth j (nth i z []) (RtoC 0)) (field r (nth j bs 0))).
(** the magnetic fields of the runs have enough polarisations *)
Definition polarised (bs : list nat) : Prop :=
  forall v, (forall r, r < length (ss_signals X) -> csum (length bs) (fun j => Cmult (v j) (field r (nth j bs 0))) = RtoC 0) ->
    forall j, j < length bs -> v j = RtoC 0.
End Field.
