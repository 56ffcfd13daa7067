(** The determination filter of complete estimates (C114). *)
From Coq Require Import Reals Lra Lia.
From Coquelicot Require Import Complex.
From Verif Require Import Base BaseLemmas PrefilterModel SpecPrefilter PrefilterProofs WholeModel SpecWholeCod WholeCodProofs.

(** C114: the rejected windows are those of the blocks in which the output is not
    zero and the part [d] explained by the best coefficients is below the minimum or
    above the maximum. *)
Theorem C114_recordings :
  forall (q : nat) (cod_min cod_max : R) (size : nat) (e : list C) (b : list (list C)) (iv : list Z),
  0 < size -> length b = length e -> (forall row, In row b -> length row = q) -> l_cod_filter cod_min cod_max size e b = Ok iv ->
  StronglySorted Z.lt iv /\
  forall j, In j iv <-> exists i lo hi d, j = Z.of_nat i /\ in_block size (length e) i lo hi /\
    heard (rows lo hi e) /\ best_part q (rows lo hi e) (rows lo hi b) d /\ (Rlt d cod_min \/ Rlt cod_max d).
Proof. intros q lo hi s e b iv H1 H2 H3. exact (@l_filter q lo hi s e b H1 H2 H3 iv). Qed.
Print Assumptions C114_recordings.

(** C114: the explained part is one number between 0 and 1. *)
Theorem C114_recordings_part :
  forall (q : nat) (e : list C) (b : list (list C)) (d : R), heard e -> best_part q e b d ->
  Rle 0 d /\ Rle d R1 /\ forall d', best_part q e b d' -> d' = d.
Proof. intros q e b d He Hd. destruct (part_bounds He Hd). repeat split; try assumption. intros d' H'. exact (part_unique He H' Hd). Qed.
Print Assumptions C114_recordings_part.

(** C114: the filter works exactly when the inputs are independent in every block;
    otherwise it raises LinAlgError. *)
Theorem C114_recordings_succeeds :
  forall (q : nat) (cod_min cod_max : R) (size : nat) (e : list C) (b : list (list C)),
  0 < size -> length b = length e -> (forall row, In row b -> length row = q) -> e <> [] ->
  ((exists iv, l_cod_filter cod_min cod_max size e b = Ok iv) <->
   forall i lo hi, in_block size (length e) i lo hi -> free_rows q (rows lo hi b)) /\
  forall x, l_cod_filter cod_min cod_max size e b = Err x -> x = LinAlgError.
Proof. intros q lo hi s e b H1 H2 H3 H4. split; [exact (l_filter_ok lo hi H1 H2 H3 H4)|intros x; exact (l_filter_err H1 H2 H4)]. Qed.
Print Assumptions C114_recordings_succeeds.

(** One constant input; the output is constant in the first two windows, alternating
    in the next two and zero in the last three. *)
Definition part_e : list C := [RtoC 3; RtoC 3; RtoC 1; Copp (RtoC 1); RtoC 0; RtoC 0; RtoC 0].
Definition part_b : list (list C) := repeat [RtoC 1] 7.
Lemma mod2 x y : modulus2 (x, y) = (x * x + y * y)%R.
Proof. unfold modulus2, Cmod. rewrite sqrt_sqrt; cbn; [ring|nra]. Qed.
Lemma part_rows : forall row, In row part_b -> length row = 1.
Proof. intros row H. apply repeat_spec in H. subst. reflexivity. Qed.
Lemma part_free lo hi i : in_block 2 7 i lo hi -> free_rows 1 (rows lo hi part_b).
Proof.
  intros [H1 [_ H2]] [|v [|? ?]] Hl H; try discriminate. constructor; [|constructor].
  specialize (H [RtoC 1]). cbn in H. rewrite Cmult_1_r, Cplus_0_r in H. apply H. unfold rows, part_b.
  destruct lo as [|[|[|[|[|[|lo]]]]]]; cbn [skipn repeat]; (destruct (hi - _) eqn:E; [lia|left; reflexivity]) || idtac.
  all: destruct lo; cbn [skipn]; (destruct (hi - _) eqn:E; [lia|left; reflexivity]) || lia.
Qed.
Lemma part_2 : best_part 1 [RtoC 1; Copp (RtoC 1)] [[RtoC 1]; [RtoC 1]] 0%R.
Proof.
  assert (L : forall v, left_over [RtoC 1; Copp (RtoC 1)] [[RtoC 1]; [RtoC 1]] [v] = (2 + 2 * (fst v * fst v + snd v * snd v))%R).
  { intros [x y]. unfold left_over. cbn [combine map fst snd predicted sum_R fold_right]. unfold Cminus, Cmult, Copp, RtoC, Cplus. cbn [fst snd]. rewrite !mod2. ring. }
  assert (P : power [RtoC 1; Copp (RtoC 1)] = 2%R).
  { unfold power. cbn [map sum_R fold_right]. unfold Copp, RtoC. cbn [fst snd]. rewrite !mod2. ring. }
  split; [lra|]. exists 2%R. split; [|split].
  - intros [|v [|? ?]] Hl; try discriminate. rewrite L. nra.
  - exists [RtoC 0]. split; [reflexivity|]. rewrite L. cbn. ring.
  - rewrite P. ring.
Qed.
Lemma part_1 : best_part 1 [RtoC 3; RtoC 3] [[RtoC 1]; [RtoC 1]] 1%R.
Proof.
  split; [lra|]. exists 0%R. split; [|split].
  - intros z _. apply (sum_ge0 (f := fun p : C * list C => modulus2 (Cminus (fst p) (predicted z (snd p))))). intros x. apply modulus2_ge0.
  - exists [RtoC 3]. split; [reflexivity|]. unfold left_over. cbn [combine map fst snd predicted sum_R fold_right]. unfold Cminus, Cmult, Copp, RtoC, Cplus. cbn [fst snd]. rewrite !mod2. ring.
  - ring.
Qed.
Example C114_recordings_example : exists iv, l_cod_filter (/ 2) 1 2 part_e part_b = Ok iv /\ In 2%Z iv /\ ~ In 0%Z iv /\ ~ In 5%Z iv.
Proof.
  assert (B2 : in_block 2 7 2 2 4) by (split; [lia|split; [exists 1; lia|left; lia]]).
  assert (B0 : in_block 2 7 0 0 2) by (split; [lia|split; [exists 0; lia|left; lia]]).
  assert (B5 : in_block 2 7 5 4 7) by (split; [lia|split; [exists 2; lia|right; lia]]).
  destruct (C114_recordings_succeeds 1 (/ 2) 1 2 part_e part_b) as [[_ S] _]; [lia|reflexivity|exact part_rows|discriminate|].
  destruct S as [iv E]; [intros i lo hi; apply part_free|]. exists iv. split; [exact E|].
  destruct (C114_recordings 1 (/ 2) 1 2 part_e part_b iv) as [_ I]; [lia|reflexivity|exact part_rows|exact E|].
  split; [|split].
  - apply I. exists 2, 2, 4, 0%R. split; [reflexivity|]. split; [exact B2|]. split; [exists (RtoC 1); split; [left; reflexivity|intros H; injection H; lra]|].
    split; [exact part_2|left; lra].
  - intros H. apply I in H as (i & lo & hi & d & Ei & B & _ & P & O). assert (i = 0) by lia. subst i.
    destruct (in_block_fun 2 _ _ _ _ _ _ ltac:(lia) B B0) as [-> ->].
    assert (d = 1%R) by (apply (@part_unique 1 [RtoC 3; RtoC 3] [[RtoC 1]; [RtoC 1]]); [|exact P|exact part_1];
      exists (RtoC 3); split; [left; reflexivity|intros H; injection H; lra]).
    lra.
  - intros H. apply I in H as (i & lo & hi & d & Ei & B & N & _). assert (i = 5) by lia. subst i.
    destruct (in_block_fun 2 _ _ _ _ _ _ ltac:(lia) B B5) as [-> ->].
    destruct N as (x & [<-|[<-|[<-|[]]]] & N); apply N; reflexivity.
Qed.
