(** The times of the rejected windows. *)
From Coq Require Import Reals ZArith Permutation Sorted Lia.
From Coquelicot Require Import Complex.
From Verif Require Import Base BaseLemmas Arith TagsModel SyncModel SetModel FourierModel MestModel SpecMest BiModel UtilsModel SpecUtils UtilsProofs SpecFull WholeModel
  SpecRunOrder RunOrderFourier RunOrderRows.
Open Scope nat_scope.

Lemma times_at (l : list winrun) d : forall line, StronglySorted Z.lt line -> (forall i, In i line -> (0 <= i < Z.of_nat (length (all_times l)))%Z) ->
  invalid_times (k := listK) l line = map (fun i => nth (Z.to_nat i) (all_times l) d) line.
Proof.
  induction l as [|[[rate start] [[Nw Lw] shift]] l IH]; intros line S H.
  - destruct line as [|i line]; [reflexivity|]. specialize (H i (or_introl eq_refl)). cbn in H. lia.
  - assert (E : length (run_times ((rate, start), (Nw, Lw, shift))) = Nw) by (unfold run_times; rewrite map_length, seq_length; reflexivity).
    change (all_times (((rate, start), (Nw, Lw, shift)) :: l)) with (run_times ((rate, start), (Nw, Lw, shift)) ++ all_times l) in *.
    rewrite app_length, E in H. cbn [invalid_times].
    rewrite (filter_split (Z.of_nat Nw) line S) at 3. rewrite map_app. f_equal.
    + apply map_ext_in. intros i Hi. apply filter_In in Hi as [Hi Hlt]. apply Z.ltb_lt in Hlt. specialize (H i Hi).
      rewrite app_nth1 by lia. unfold run_times. cbn [fst snd].
      rewrite (nth_indep _ d (centre (A := RA) rate start Lw shift 0)) by (rewrite map_length, seq_length; lia).
      rewrite (map_nth (centre (A := RA) rate start Lw shift)), seq_nth by lia. cbn [plus]. unfold centre. rewrite Z2Nat.id by lia. reflexivity.
    + rewrite IH.
      * rewrite map_map. apply map_ext_in. intros i Hi. apply filter_In in Hi as [Hi Hlt]. apply negb_true_iff, Z.ltb_ge in Hlt.
        rewrite app_nth2 by lia. f_equal. lia.
      * apply sorted_shift, sorted_filter, S.
      * intros i Hi. apply in_map_iff in Hi as (i' & <- & Hi). apply filter_In in Hi as [Hi Hlt]. apply negb_true_iff, Z.ltb_ge in Hlt. specialize (H i' Hi). lia.
Qed.

Lemma same_rows_perm p iv iv' : NoDup p -> NoDup iv -> NoDup iv' -> same_rows p iv iv' -> Permutation (map (fun z => Z.of_nat (nth (Z.to_nat z) p 0)) iv') iv.
Proof.
  intros Np N N' [H1 H2]. set (h := fun z => Z.of_nat (nth (Z.to_nat z) p 0)).
  assert (Hh : forall j i, nth_error p j = Some i -> h (Z.of_nat j) = Z.of_nat i).
  { intros j i E. unfold h. rewrite Nat2Z.id, (nth_error_nth _ _ _ E). reflexivity. }
  apply NoDup_Permutation; [|exact N|].
  - apply NoDup_map_in; [exact N'|]. intros x y Hx Hy E. apply H2 in Hx as (j & i & -> & Ej & _). apply H2 in Hy as (j' & i' & -> & Ej' & _).
    rewrite (Hh _ _ Ej), (Hh _ _ Ej') in E. apply Nat2Z.inj in E. subst i'. f_equal. apply (proj1 (NoDup_nth_error p) Np); [|congruence].
    apply nth_error_Some. congruence.
  - intros z. split.
    + intros Hz. apply in_map_iff in Hz as (y & <- & Hy). apply H2 in Hy as (j & i & -> & Ej & Hi). rewrite (Hh _ _ Ej). exact Hi.
    + intros Hz. destruct (H1 z Hz) as (i & Hi & ->). destruct (In_nth_error _ _ Hi) as (j & Ej). rewrite <- (Hh _ _ Ej). apply in_map, H2. eauto.
Qed.

(** the windows of [X] and [X'], in the order of [X] *)
Definition matched (X X' : recordings) (w w' : windows) (n : nat) (p : list nat) : Prop :=
  exists W, length W = n /\ all_times (run_windows (k := listK) X w) = map fst W /\
    all_times (run_windows (k := listK) X' w') = map snd (take_at (0%R, 0%R) p W) /\ Forall (fun x => same_window X X' (fst x) (snd x)) W.

Lemma times_moved X X' w w' n p iv iv' : Permutation p (seq 0 n) -> matched X X' w w' n p ->
  same_rows p iv iv' -> StronglySorted Z.lt iv -> StronglySorted Z.lt iv' -> SpecMest.legal n iv -> SpecMest.legal n iv' ->
  same_windows X X' (invalid_times (k := listK) (run_windows (k := listK) X w) iv) (invalid_times (k := listK) (run_windows (k := listK) X' w') iv').
Proof.
  intros P (W & LW & E & E' & F) SR S S' L L'. set (d := (0%R, 0%R)) in *.
  assert (Lp : length p = n) by (rewrite (Permutation_length P); apply seq_length).
  assert (LT : length (all_times (run_windows (k := listK) X w)) = n) by (rewrite E, map_length; exact LW).
  assert (LT' : length (all_times (run_windows (k := listK) X' w')) = n) by (rewrite E'; unfold take_at; rewrite !map_length; exact Lp).
  rewrite (times_at _ (fst d) iv S) by (rewrite LT; exact L). rewrite (times_at _ (snd d) iv' S') by (rewrite LT'; exact L').
  rewrite E, E'. exists (map (fun i => nth (Z.to_nat i) W d) iv). split; [|split].
  - apply Forall_map, Forall_forall. intros i Hi. rewrite Forall_forall in F. apply F, nth_In. specialize (L i Hi). lia.
  - rewrite map_map. apply map_ext. intros i. apply map_nth.
  - rewrite map_map. pose proof (same_rows_perm p iv iv' (Permutation_NoDup (Permutation_sym P) (seq_NoDup n 0)) (sorted_NoDup _ S) (sorted_NoDup _ S') SR) as Q.
    apply (Permutation_map (fun i => snd (nth (Z.to_nat i) W d))) in Q. rewrite map_map in Q.
    rewrite <- Q. match goal with |- Permutation ?a ?b => replace a with b; [reflexivity|] end.
    apply map_ext_in. intros z Hz. specialize (L' z Hz). rewrite (map_nth snd). f_equal. rewrite Nat2Z.id. unfold take_at.
    assert (Lz : Z.to_nat z < length p) by lia.
    rewrite (nth_indep (map (fun i => nth i W d) p) d (nth 0 W d)) by (rewrite map_length; exact Lz). rewrite (map_nth (fun i => nth i W d)). reflexivity.
Qed.
