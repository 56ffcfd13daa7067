(** Lemmas about the real formulation. *)
From Coq Require Import Reals Lra.
From Coquelicot Require Import Complex.
From Verif Require Import Base BaseLemmas RealPbModel SpecRealPb.
Open Scope R_scope.

Lemma real_line_length l : length (real_line l) = (2 * length l)%nat.
Proof. unfold real_line. induction l as [|c l IH]; [reflexivity|]. cbn [flat_map app length]. rewrite IH. lia. Qed.

Lemma decode_encode l : decode (real_line l) = l.
Proof. induction l as [|[a b] l IH]; [reflexivity|]. simpl. f_equal. exact IH. Qed.

Lemma encode_decode : forall n (z : list R), length z = (2 * n)%nat -> real_line (decode z) = z /\ length (decode z) = n.
Proof.
  induction n as [|n IH]; intros [|a [|b z]] H; simpl in *; try lia; [auto|].
  destruct (IH z ltac:(lia)) as [E L]. split; [|lia]. unfold real_line in *. cbn [flat_map app Re Im fst snd]. rewrite E. reflexivity.
Qed.

Lemma real_line_inj l l' : real_line l = real_line l' -> l = l'.
Proof. intros H. rewrite <- (decode_encode l), <- (decode_encode l'), H. reflexivity. Qed.

Lemma real_inputs_length inputs : length (real_inputs inputs) = (2 * length inputs)%nat.
Proof. unfold real_inputs. induction inputs as [|c l IH]; [reflexivity|]. cbn [flat_map app length]. rewrite IH. lia. Qed.

(** one input *)
Lemma combine_one c : forall row acc, length acc = length row ->
  real_line (zipw Cplus (map (Cmult c) row) acc) =
  zipw Rplus (map (Rmult (Re c)) (flat_map (fun c => [Re c; Im c]) row))
             (zipw Rplus (map (Rmult (Im c)) (flat_map (fun c => [- Im c; Re c]) row)) (real_line acc)).
Proof.
  unfold real_line. destruct c as [a b]. induction row as [|[x y] row IH]; intros [|[u v] acc] H; try discriminate; [reflexivity|].
  injection H as H. specialize (IH acc H). unfold zipw in *. cbn [map combine flat_map app fst snd Re Im] in *. rewrite <- IH.
  f_equal; [|f_equal]; simpl; ring.
Qed.

Lemma zipw_length {A B D} (f : A -> B -> D) l l' : length l = length l' -> length (zipw f l l') = length l'.
Proof. intros H. unfold zipw. rewrite map_length, combine_length. lia. Qed.

Lemma prediction_length n : forall z inputs, Forall (fun row => length row = n) inputs -> length (prediction Cplus Cmult (RtoC 0) n z inputs) = n.
Proof.
  unfold prediction. intros z inputs. revert z. induction inputs as [|row inputs IH]; intros [|c z] F; simpl; try apply repeat_length.
  inversion F; subst. rewrite zipw_length; [apply IH; assumption|]. rewrite map_length. symmetry. apply IH. assumption.
Qed.

Lemma real_zero n : real_line (repeat (RtoC 0) n) = repeat 0 (2 * n).
Proof.
  unfold real_line. induction n as [|n IH]; [reflexivity|]. replace (2 * S n)%nat with (S (S (2 * n))) by lia.
  cbn [repeat flat_map app]. rewrite IH. reflexivity.
Qed.

Lemma prediction_real n : forall z inputs, length z = length inputs -> Forall (fun row => length row = n) inputs ->
  prediction Rplus Rmult 0 (2 * n) (real_line z) (real_inputs inputs) = real_line (prediction Cplus Cmult (RtoC 0) n z inputs).
Proof.
  intros z inputs. revert z. induction inputs as [|row inputs IH]; intros [|c z] E F; try discriminate; [symmetry; apply real_zero|].
  injection E as E. inversion F; subst. specialize (IH z E H2).
  unfold prediction in *. change (real_line (c :: z)) with (Re c :: Im c :: real_line z).
  change (real_inputs (row :: inputs)) with (flat_map (fun c => [Re c; Im c]) row :: flat_map (fun c => [- Im c; Re c]) row :: real_inputs inputs).
  cbn [combine fold_right fst snd]. rewrite IH. symmetry. apply combine_one. exact (prediction_length _ z inputs H2).
Qed.

Lemma residual_real : forall o p, length o = length p ->
  zipw Rminus (real_line o) (real_line p) = real_line (zipw Cminus o p).
Proof.
  unfold real_line, zipw. induction o as [|[a b] o IH]; intros [|[x y] p] E; try discriminate; [reflexivity|].
  injection E as E. cbn [flat_map app combine map fst snd Re Im]. rewrite (IH p E). f_equal.
Qed.

Lemma square_real r : sumsq Rabs (real_line r) = sumsq Cmod r.
Proof.
  unfold sumsq, real_line. induction r as [|[a b] r IH]; [reflexivity|]. cbn [flat_map app map fold_right]. rewrite IH.
  rewrite <- !Rsqr_pow2, <- !Rsqr_abs, !Rsqr_pow2. unfold Cmod. rewrite pow2_sqrt; [simpl; ring|]. simpl. nra.
Qed.
