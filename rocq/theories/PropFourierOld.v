(** C90: the older Fourier functions. *)
From Coq Require Import Reals Lra QArith Qcanon.
From Coquelicot Require Import Complex.
From Verif Require Import Base Arith OrdLaws QcLemmas SyncModel SpecSet FourierModel SpecFourier FourierProofs FourierExact FourierReal FourierOldModel FourierOldProofs.
Open Scope nat_scope.

(** C90: on all inputs, the older function gives what [time_to_freq] gives without
    the last window, or raises the same exception. *)
Theorem C90_prefix : forall data fs f Nper ov w,
  time_to_freq_old wave cmul cdot scale data fs f Nper ov w =
  match time_to_freq tone cmul cdot data fs f Nper ov w with
  | Ok (r, (n, L, s)) => Ok (map (@removelast C) r, (pred n, L, s))
  | Err e => Err e
  end.
Proof. exact old_prefix. Qed.
Print Assumptions C90_prefix.

(** C90: sliding windows. *)
Theorem C90_windows : forall (V : Type) (arr : list V) nb size shift, (nb - 1) * shift + size <= length arr ->
  exists rows, sliding_window arr (Z.of_nat nb) (Z.of_nat size) (Z.of_nat shift) = Ok rows /\ length rows = nb /\
    forall i r, nth_error rows i = Some r -> stretch arr (i * shift) size r.
Proof. exact @window_rows. Qed.
Print Assumptions C90_windows.

Theorem C90_windows_too_many : forall (V : Type) (arr : list V) nb size shift, 1 <= nb -> length arr < (nb - 1) * shift + size ->
  sliding_window arr (Z.of_nat nb) (Z.of_nat size) (Z.of_nat shift) = Err AssertionError.
Proof. exact @window_small. Qed.
Print Assumptions C90_windows_too_many.

(** C90: the transform of a tone with a whole number of periods. *)
Theorem C90_tone : forall (amp phi : R) (f fs : Qc) y (m : Z), y <> [] -> fs <> Q2Qc 0 -> (Q2Qc 0 < f / fs /\ f / fs < Q2Qc (1 # 2))%Qc ->
  (ZtoQc (Z.of_nat (length y)) * (f / fs))%Qc = ZtoQc m -> samples_tone amp phi (f / fs)%Qc y ->
  ft wave cmul cdot scale y f fs None = Ok (RtoC amp * cis phi)%C.
Proof. exact ft_tone. Qed.
Print Assumptions C90_tone.

(** the example in the documentation of [sliding_window] *)
Example C90_windows_example :
  sliding_window (seq 0 15) 4 3 2 = Ok [[0; 1; 2]; [2; 3; 4]; [4; 5; 6]; [6; 7; 8]] /\
  sliding_window (seq 0 8) 4 3 2 = Err AssertionError.
Proof. split; reflexivity. Qed.

(** integer kernels, to run the model *)
Example C90_example :
  time_to_freq_old (A := QA) (fun _ _ n => Z.of_nat n) Z.mul
    (fun x w => fold_right Z.add 0%Z (map (fun p => (fst p * snd p)%Z) (combine x w))) (fun _ z => z)
    [map Z.of_nat (seq 0 25); repeat 1%Z 25] (Q2Qc 10) (Q2Qc 2) (Q2Qc 2) (Q2Qc (1 # 2)) WNone =
    Ok ([[285; 510; 735]; [45; 45; 45]]%Z, (3, 10, 5)).
Proof. vm_compute. reflexivity. Qed.

Example C90_succeeds : exists r, time_to_freq tone cmul cdot [repeat (RtoC 1) 25] (Q2Qc 10) (Q2Qc 2) (Q2Qc 2) (Q2Qc (1 # 2)) WNone = Ok (r, (4, 10, 5)).
Proof.
  destruct (proj2 (time_to_freq_ok tone cmul cdot [repeat (RtoC 1) 25] (Q2Qc 10) (Q2Qc 2) (Q2Qc 2) (Q2Qc (1 # 2)) WNone 10 5)) as (r & Nw & H).
  - split; [discriminate|]. split; [discriminate|]. exists 25, 3%Z, None. split; [intros y [<-|[]]; reflexivity|]. split; [|reflexivity].
    apply discrete_window_spec. vm_compute. reflexivity.
  - exists r. rewrite H. repeat f_equal. apply time_to_freq_spec in H. destruct H as (size & nw & _ & Hl & _ & Hd & HN & _).
    specialize (Hl _ (or_introl eq_refl)). rewrite repeat_length in Hl. subst size. vm_compute in Hd. injection Hd as <-. lia.
Qed.

(** ten samples of a tone at 2 Hz, sampled at 10 Hz *)
Example C90_tone_example :
  let y := map (fun n => RtoC (3 * cos (2 * PI * Qc2R (Q2Qc 2 / Q2Qc 10)%Qc * INR n + 1))) (seq 0 10) in
  y <> [] /\ (Q2Qc 0 < Q2Qc 2 / Q2Qc 10 /\ Q2Qc 2 / Q2Qc 10 < Q2Qc (1 # 2))%Qc /\
  (ZtoQc (Z.of_nat (length y)) * (Q2Qc 2 / Q2Qc 10))%Qc = ZtoQc 2 /\ samples_tone 3 1 (Q2Qc 2 / Q2Qc 10)%Qc y.
Proof.
  intros y. split; [discriminate|]. split; [split; reflexivity|]. split; [apply Qc_is_canon; reflexivity|].
  intros n v Hn. unfold y in Hn. rewrite nth_error_map in Hn. destruct (nth_error (seq 0 10) n) as [k|] eqn:E; [|discriminate].
  injection Hn as <-. assert (k = n); [|subst; reflexivity].
  assert (n < 10) by (change 10 with (length (seq 0 10)); apply nth_error_Some; congruence).
  do 10 (destruct n as [|n]; [injection E as <-; reflexivity|]). lia.
Qed.
