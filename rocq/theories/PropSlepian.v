(** C91: Slepian windows. [dpss N] are the [N] values computed by scipy. *)
From Coq Require Import QArith Qcanon.
From Verif Require Import Base Arith SlepianModel SlepianProofs.
Open Scope nat_scope.

(** C91: a window of the asked length, for every length and every positive limit. *)
Theorem C91_length : forall dpss N M, (forall n, length (dpss n) = n) -> 0 < M ->
  exists r, slepian dpss N M = Ok r /\ length r = N.
Proof. exact slepian_spec. Qed.
Print Assumptions C91_length.

(** C91: up to the limit, scipy's window with mean 1. *)
Theorem C91_small : forall dpss N M r, slepian dpss N M = Ok r -> N <= M -> 0 < N -> length (dpss N) = N -> qsum (dpss N) <> Q2Qc 0 ->
  length r = N /\ qsum r = nq N /\ forall n u, nth_error (dpss N) n = Some u -> nth_error r n = Some (u * (nq N / qsum (dpss N)))%Qc.
Proof. exact slepian_small. Qed.
Print Assumptions C91_small.

(** C91: above the limit [M], the values at the places [n*M/N] of the window of
    length [M], interpolated; constant after its last place; never outside of its range. *)
Theorem C91_large : forall dpss N M r, slepian dpss N M = Ok r -> M < N -> (forall n, length (dpss n) = n) -> 0 < M ->
  exists ref, slepian dpss M 1000 = Ok ref /\ length ref = M /\ length r = N /\
  (forall n v, nth_error r n = Some v ->
    (forall k u w, k * N <= n * M < S k * N -> nth_error ref k = Some u -> nth_error ref (S k) = Some w ->
       v = (u + (w - u) * (nq n * nq M / nq N - nq k))%Qc) /\
    (forall u, (M - 1) * N <= n * M -> nth_error ref (M - 1) = Some u -> v = u)) /\
  (forall lo hi, (forall u, In u ref -> lo <= u <= hi)%Qc -> forall v, In v r -> (lo <= v <= hi)%Qc).
Proof. exact slepian_large. Qed.
Print Assumptions C91_large.

(** C91: above the limit the window is neither symmetric nor of mean 1, whatever
    the symmetric and not constant window it comes from: a limit of 3, four values. *)
Theorem C91_mean_and_symmetry_refuted : forall dpss x y, dpss 3 = [x; y; x] -> x <> y -> (x + y + x)%Qc <> Q2Qc 0 ->
  exists a b c d, slepian dpss 4 3 = Ok [a; b; c; d] /\ a = d /\ b <> c /\ qmean [a; b; c; d] <> Q2Qc 1.
Proof. exact slepian_four. Qed.
Print Assumptions C91_mean_and_symmetry_refuted.

(** a triangular window *)
Definition triangle (n : nat) : list Qc := map (fun k => nq (1 + Nat.min k (n - 1 - k))) (seq 0 n).
Example C91_example :
  (forall n, length (triangle n) = n) /\ qsum (triangle 5) <> Q2Qc 0 /\ triangle 3 = [nq 1; nq 2; nq 1] /\
  match slepian triangle 5 1000 with Ok r => map this r | Err _ => [] end = [5 # 9; 10 # 9; 5 # 3; 10 # 9; 5 # 9]%Q /\
  match slepian triangle 7 3 with Ok r => map this r | Err _ => [] end = [3 # 4; 15 # 14; 39 # 28; 9 # 7; 27 # 28; 3 # 4; 3 # 4]%Q /\
  slepian triangle 4 0 = Err ZeroDivisionError.
Proof.
  split; [intros n; unfold triangle; rewrite map_length, seq_length; reflexivity|]. split; [discriminate|]. split; [reflexivity|].
  vm_compute. repeat split; reflexivity.
Qed.
