(** Vocabulary for the remote reference: channels of complex coefficients. *)
From Coq Require Import Reals.
From Coquelicot Require Import Complex.
From Verif Require Import Base BaseLemmas.

(** the sum of [f 0], ..., [f (n - 1)] *)
Definition csum (n : nat) (f : nat -> C) : C := fold_right Cplus (RtoC 0) (map f (seq 0 n)).

Section Channels.
Variables (coeffs : list (list C)) (n : nat).
(** the coefficient of channel [c] in window [t] *)
Definition at_window (c t : nat) : C := nth t (nth c coeffs []) (RtoC 0).
Definition channel (l : list nat) (i : nat) : nat -> C := at_window (nth i l 0).
(** these channels exist and have [n] coefficients *)
Definition recorded (l : list nat) : Prop := forall c, In c l -> exists line, nth_error coeffs c = Some line /\ length line = n.
(** the sum over the windows of [f] times the conjugate of channel number [k] of [l] *)
Definition correlation (f : nat -> C) (l : list nat) (k : nat) : C := csum n (fun t => Cmult (f t) (Cconj (channel l k t))).
Definition uncorrelated (f : nat -> C) (l : list nat) : Prop := forall k, k < length l -> correlation f l k = RtoC 0.
(** a linear combination of channels *)
Definition combination (v : nat -> C) (l : list nat) (t : nat) : C := csum (length l) (fun j => Cmult (v j) (channel l j t)).
(** none of the channels is a combination of the others *)
Definition separate (l : list nat) : Prop := forall v, (forall t, t < n -> combination v l t = RtoC 0) -> forall j, j < length l -> v j = RtoC 0.
(** the channels [l'] see every combination of the channels [l] *)
Definition sees (l' l : list nat) : Prop := forall v, uncorrelated (combination v l) l' -> forall j, j < length l -> v j = RtoC 0.
(** a table of [length es] rows and [length bs] columns *)
Definition table (es bs : list nat) (z : list (list C)) : Prop := length z = length es /\ Forall (fun row => length row = length bs) z.
(** what is left of output [i] when it is predicted from the inputs with [z] *)
Definition noise (es bs : list nat) (z : list (list C)) (i t : nat) : C :=
  Cminus (channel es i t) (combination (fun j => nth j (nth i z []) (RtoC 0)) bs t).
(** [z] relates the outputs to the inputs up to noise that has nothing to do with the
    channels [rs] *)
Definition related (es bs rs : list nat) (z : list (list C)) : Prop :=
  table es bs z /\ forall i, i < length es -> uncorrelated (noise es bs z i) rs.
End Channels.
