(** Vocabulary of the Fourier properties. *)
From Coq Require Import QArith Qcanon.
From Verif Require Import Base Arith SyncModel SpecSet FourierModel.
Open Scope nat_scope.

(** [w] is the stretch of [L] consecutive entries of [y] starting at entry [a] *)
Definition stretch {V} (y : list V) (a L : nat) (w : list V) : Prop :=
  a + L <= length y /\ length w = L /\ forall n, n < L -> nth_error w n = nth_error y (a + n).

(** what a legal choice of window parameters is, in exact arithmetic *)
Record window_params (size : nat) (nf Nper overlap : Qc) (Nw Lw shift : Z) : Prop := {
  wp_overlap : (Q2Qc 0 <= overlap /\ overlap <= Q2Qc 1)%Qc;
  wp_freq : (Q2Qc 0 < nf /\ nf <= Q2Qc (1 # 2))%Qc;
  (* Lw = ceil(Nper / nf) *)
  wp_length : (ZtoQc (Lw - 1) * nf < Nper /\ Nper <= ZtoQc Lw * nf)%Qc;
  (* shift = floor(Lw * (1 - overlap)) *)
  wp_shift : (ZtoQc shift <= ZtoQc Lw * (Q2Qc 1 - overlap) /\ ZtoQc Lw * (Q2Qc 1 - overlap) < ZtoQc (shift + 1))%Qc;
  wp_pos : (0 < shift)%Z;
  (* Nw = floor((size - Lw) / shift) *)
  wp_count : (Nw * shift <= Z.of_nat size - Lw < (Nw + 1) * shift)%Z;
  wp_one : (1 <= Nw)%Z
}.

Section Coeffs.
Context {A : Arith} {V C : Type}.
Variables (tone : num A -> nat -> nat -> C) (cmul : C -> C -> C) (cdot : list C -> list V -> C).

(** the vector every window is multiplied with: a tone of length [L], tapered
    by the user's window *)
Definition taper (nf : num A) (L : nat) (w : option (list C)) (x : list C) : Prop :=
  length x = L /\ forall n, n < L -> 
  match w with
  | None => nth_error x n = Some (tone nf L n)
  | Some w => exists v, nth_error w n = Some v /\ nth_error x n = Some (cmul (tone nf L n) v)
  end.

(** the window the user asked for, at length [L] *)
Definition asked (w : window_arg C) (L : nat) (o : option (list C)) : Prop :=
  match w with
  | WNone => o = None
  | WArray a => o = Some a /\ length a = L
  | WFun f => exists a, f L = Ok a /\ o = Some a /\ length a = L
  end.

(** [l] lists the coefficients of all windows of [y], shifted by [shift] *)
Definition coeffs_of (x : list C) (L shift : nat) (y : list V) (l : list C) : Prop :=
  forall k c, nth_error l k = Some c <-> exists w, stretch y (k * shift) L w /\ c = cdot x w.

(** [part] lists the calibrated coefficients of channel [c] of the run [s] at
    frequency [f], with windows of [L] samples shifted by [shift] *)
Definition run_coeffs {K} (calib : K -> num A -> res (option C)) (cdiv : C -> C -> C)
    (f : num A) (w : window_arg C) (s : sync A V K) (c L shift : nat) (part : list C) : Prop :=
  exists g v o x, is_seg s c g /\ calib (g_cal g) f = Ok (Some v) /\
    asked w L o /\ taper (ndiv A f (s_rate s)) L o x /\
    forall k z, nth_error part k = Some z <-> exists win, stretch (g_vals g) (k * shift) L win /\ z = cdiv (cdot x win) v.
End Coeffs.
