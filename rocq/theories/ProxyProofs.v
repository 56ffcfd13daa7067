(** Proofs about array proxies and files of samples. *)
From Verif Require Import Base BaseLemmas SliceLemmas ProxyModel SpecProxy.

Definition through (l : list nat) (a : axis) : axis :=
  match a with Keep l2 => Keep (map (fun k => nth k l 0) l2) | Drop k => Drop (nth k l 0) end.

Lemma slice_range_length s d l : slice_range s d = Ok l -> axis_of (IxSlice s) d = Ok (Keep (map Z.to_nat l)).
Proof. intros H. simpl. rewrite H. reflexivity. Qed.

Lemma axis_full d : axis_of ix_full d = Ok (Keep (seq 0 d)).
Proof.
  unfold ix_full. rewrite (slice_range_length _ _ _ (slice_range_full d)). rewrite map_map.
  rewrite (map_ext _ (fun x => x)) by (intros; lia). rewrite map_id. reflexivity.
Qed.

Lemma map_nth_seq (l : list nat) : map (fun k => nth k l 0) (seq 0 (length l)) = l.
Proof.
  apply nth_error_ext. intros i. rewrite nth_error_map, nth_error_seq.
  destruct (Nat.ltb_spec i (length l)); simpl.
  - symmetry. apply nth_error_nth'. assumption.
  - symmetry. apply nth_error_None. lia.
Qed.

(** normalising a slice twice changes nothing *)
Lemma slice_indices_norm s len a b c : (0 <= len)%Z -> (0 < c)%Z -> slice_indices s len = Ok (a, b, c) ->
  slice_indices (mkSlice (Some a) (Some b) (Some c)) len = Ok (a, b, c).
Proof.
  intros Hl Hc H. destruct (slice_indices_bounds _ _ _ _ _ Hl H) as (_ & Hp & _). specialize (Hp Hc).
  unfold slice_indices. simpl. destruct (Z.eqb_spec c 0); [lia|]. destruct (Z.ltb_spec c 0); [lia|].
  repeat match goal with |- context [(?x <? ?y)%Z] => destruct (Z.ltb_spec x y)
           | |- context [(?x <=? ?y)%Z] => destruct (Z.leb_spec x y) end; repeat f_equal; lia.
Qed.

Lemma slice_indices_step s len a b c : slice_indices s len = Ok (a, b, c) ->
  c = match sl_step s with Some c => c | None => 1%Z end.
Proof. unfold slice_indices. destruct (_ =? 0)%Z; [discriminate|]. intros H; injection H; auto. Qed.

(** one axis *)
Lemma to_slice_ok x d s f : to_slice x d = Ok (s, f) ->
  (proper s d \/ s = full_slice) /\
  exists l1, axis_of (IxSlice s) d = Ok (Keep l1) /\
  match axis_of f (length l1) with
  | Ok a2 => axis_of x d = Ok (through l1 a2)
  | Err e => axis_of x d = Err e /\ ~ nonzero x
  end.
Proof.
  destruct x as [sl|i]; unfold to_slice.
  - destruct (match sl_step sl with None => true | Some c => (0 <? c)%Z end) eqn:Hpos.
    + intros H. apply bind_ok in H as ([[a b] c] & Hs & H). injection H as <- <-.
      assert (Hc : (0 < c)%Z).
      { rewrite (slice_indices_step _ _ _ _ _ Hs). destruct (sl_step sl); [apply Z.ltb_lt; exact Hpos|lia]. }
      destruct (slice_indices_bounds sl (Z.of_nat d) _ _ _ ltac:(lia) Hs) as (_ & Hp & _). specialize (Hp Hc).
      split. { left. exists a, b, c. intuition. }
      exists (map Z.to_nat (zrange a b c)). split.
      * apply slice_range_length. unfold slice_range. rewrite (slice_indices_norm sl _ a b c); [reflexivity|lia|exact Hc|exact Hs].
      * rewrite axis_full. simpl through. rewrite map_nth_seq. apply slice_range_length. unfold slice_range. rewrite Hs. reflexivity.
    + intros H. injection H as <- <-. split; [right; reflexivity|].
      exists (seq 0 d). split; [apply axis_full|]. rewrite seq_length. simpl.
      destruct (slice_range sl d) as [l|e] eqn:Hl; simpl.
      * f_equal. f_equal. apply nth_error_ext. intros k. rewrite !nth_error_map.
        destruct (nth_error l k) as [z|] eqn:Hk; simpl; [|reflexivity].
        apply nth_error_In in Hk. pose proof (slice_range_bounds _ _ _ Hl _ Hk). rewrite seq_nth by lia. reflexivity.
      * split; [reflexivity|]. intros Hz. unfold slice_range, slice_indices in Hl.
        destruct (sl_step sl) as [c|]; [|discriminate].
        destruct (Z.eqb_spec c 0); [subst; apply Hz; reflexivity|discriminate].
  - cbv zeta. set (j := if (i <? 0)%Z then _ else _).
    destruct ((0 <=? j)%Z && (j <? Z.of_nat d)%Z) eqn:Hj; [|discriminate].
    intros H. injection H as <- <-. apply andb_true_iff in Hj as (Hj1 & Hj2). apply Z.leb_le in Hj1. apply Z.ltb_lt in Hj2.
    split. { left. exists j, (j + 1)%Z, 1%Z. intuition lia. }
    exists [Z.to_nat j]. split.
    + rewrite (slice_range_length _ _ [j]); [reflexivity|].
      assert (Hn : slice_indices (mkSlice (Some j) (Some (j + 1)%Z) (Some 1%Z)) (Z.of_nat d) = Ok (j, (j + 1)%Z, 1%Z)).
      { unfold slice_indices. simpl. destruct (Z.ltb_spec j 0); [lia|]. destruct (Z.leb_spec (Z.of_nat d) j); [lia|].
        destruct (Z.ltb_spec (j + 1) 0); [lia|]. destruct (Z.leb_spec (Z.of_nat d) (j + 1)); repeat f_equal; lia. }
      unfold slice_range. rewrite Hn. cbn [bind]. rewrite zrange_1. replace (j + 1 - j)%Z with 1%Z by lia. simpl. do 2 f_equal. lia.
    + simpl. fold j. destruct (Z.leb_spec 0 j); [|lia]. destruct (Z.ltb_spec j (Z.of_nat d)); [|lia]. reflexivity.
Qed.

Lemma to_slice_err x d e : to_slice x d = Err e -> axis_of x d = Err e.
Proof.
  destruct x as [sl|i]; unfold to_slice, axis_of.
  - destruct (match sl_step sl with None => true | Some c => (0 <? c)%Z end) eqn:Hpos; [|discriminate].
    unfold slice_range. destruct (slice_indices sl (Z.of_nat d)) as [[[a b] c]|e']; simpl; congruence.
  - cbv zeta. destruct (_ && _); [discriminate|]. intros H. injection H as <-. reflexivity.
Qed.

(** several axes *)
Lemma mapM_cons {A B} (f : A -> res B) x l : mapM f (x :: l) = (y <- f x ;; r <- mapM f l ;; Ok (y :: r)).
Proof. reflexivity. Qed.

Lemma axes_err : forall prs e, mapM (fun p => to_slice (fst p) (snd p)) prs = Err e ->
  Forall nonzero (map fst prs) -> mapM (fun p => axis_of (fst p) (snd p)) prs = Err e.
Proof.
  induction prs as [|[x d] prs IH]; intros e H Hz; [discriminate|]. inversion Hz as [|? ? Hx Hz']; subst. simpl in Hx.
  rewrite mapM_cons in H. rewrite mapM_cons. simpl in H |- *.
  destruct (to_slice x d) as [[s f]|e'] eqn:Hs.
  - destruct (to_slice_ok _ _ _ _ Hs) as (_ & l1 & _ & H2).
    destruct (axis_of f (length l1)) as [a2|e2]; [|destruct H2 as (_ & []); exact Hx].
    rewrite H2. simpl. destruct (mapM _ prs) as [q|e2] eqn:Hq in H; [discriminate|].
    rewrite (IH _ Hq Hz'). simpl in *. congruence.
  - rewrite (to_slice_err _ _ _ Hs). simpl in *. congruence.
Qed.

Lemma axes_err_some : forall prs e, mapM (fun p => to_slice (fst p) (snd p)) prs = Err e ->
  exists e', mapM (fun p => axis_of (fst p) (snd p)) prs = Err e'.
Proof.
  induction prs as [|[x d] prs IH]; intros e H; [discriminate|].
  rewrite mapM_cons in H. rewrite mapM_cons. simpl in H |- *.
  destruct (to_slice x d) as [[s f]|e'] eqn:Hs.
  - destruct (axis_of x d); simpl; [|eauto]. simpl in H.
    destruct (mapM _ prs) as [q|e2] eqn:Hq in H; [discriminate|].
    destruct (IH _ Hq) as (e3 & ->). simpl. eauto.
  - rewrite (to_slice_err _ _ _ Hs). simpl. eauto.
Qed.

Lemma axes_ok : forall prs pairs, mapM (fun p => to_slice (fst p) (snd p)) prs = Ok pairs ->
  Forall2 (fun s d => proper s d \/ s = full_slice) (map fst pairs) (map snd prs) /\
  exists ls, mapM (fun p => axis_of (fst p) (snd p)) (combine (map IxSlice (map fst pairs)) (map snd prs)) = Ok (map Keep ls) /\
  length ls = length prs /\
  match mapM (fun p => axis_of (fst p) (snd p)) (combine (map snd pairs) (map (@length nat) ls)) with
  | Ok as2 => mapM (fun p => axis_of (fst p) (snd p)) prs = Ok (map (fun p => through (fst p) (snd p)) (combine ls as2))
              /\ length as2 = length prs
  | Err e => exists e', mapM (fun p => axis_of (fst p) (snd p)) prs = Err e' /\ ~ Forall nonzero (map fst prs)
  end.
Proof.
  induction prs as [|[x d] prs IH]; intros pairs H.
  - injection H as <-. split; [constructor|]. exists []. simpl. auto.
  - rewrite mapM_cons in H. apply bind_ok in H as ([s f] & Hs & H). apply bind_ok in H as (q & Hq & H). injection H as <-.
    simpl in Hs. destruct (to_slice_ok _ _ _ _ Hs) as (Hp & l1 & H1 & H2). destruct (IH _ Hq) as (Hps & ls & H3 & H4 & H5).
    split; [constructor; assumption|]. exists (l1 :: ls). simpl map. simpl combine. rewrite mapM_cons. cbn [fst snd]. rewrite H1. cbn [bind].
    rewrite H3. cbn [bind]. split; [reflexivity|]. split; [simpl; lia|].
    rewrite !mapM_cons. cbn [fst snd].
    destruct (axis_of f (length l1)) as [a2|e2]; cbn [bind].
    + rewrite H2. cbn [bind].
      destruct (mapM _ (combine (map snd q) (map (@length nat) ls))) as [as2|e3]; cbn [bind].
      * destruct H5 as (H5 & H6). rewrite H5. cbn [bind]. split; [reflexivity|simpl; lia].
      * destruct H5 as (e' & H5 & H6). rewrite H5. cbn [bind]. exists e'. split; [reflexivity|].
        intros Hz. apply H6. inversion Hz; assumption.
    + destruct H2 as (H2 & H6). rewrite H2. cbn [bind]. exists e2. split; [reflexivity|]. intros Hz. apply H6. inversion Hz; assumption.
Qed.

Lemma kept_keep ls : kept (map Keep ls) = map (@length nat) ls.
Proof. induction ls; simpl; [reflexivity|]. f_equal. assumption. Qed.

Lemma kept_through : forall ls as2, length ls = length as2 ->
  kept (map (fun p => through (fst p) (snd p)) (combine ls as2)) = kept as2.
Proof.
  induction ls as [|l ls IH]; intros [|a as2] H; try discriminate; [reflexivity|]. simpl in H. simpl combine. simpl map.
  unfold kept in *. simpl. rewrite IH by lia. f_equal. destruct a; simpl; [rewrite map_length|]; reflexivity.
Qed.

Lemma source_through : forall ls as2 idx, length ls = length as2 -> inside (kept as2) idx ->
  source (map Keep ls) (source as2 idx) = source (map (fun p => through (fst p) (snd p)) (combine ls as2)) idx.
Proof.
  induction ls as [|l ls IH]; intros [|a as2] idx Hl H; try discriminate; [reflexivity|]. simpl in Hl.
  destruct a as [l2|k]; simpl in H |- *.
  - inversion H as [|? ? ? ? Hi Hr]; subst. simpl. rewrite IH by (try exact Hr; lia). f_equal.
    rewrite nth_indep with (l := map _ l2) (d' := (fun k => nth k l 0) 0) by (rewrite map_length; exact Hi).
    rewrite (map_nth (fun k => nth k l 0)). reflexivity.
  - rewrite IH by (try exact H; lia). reflexivity.
Qed.

(** positions of the result are positions of the source *)
Lemma axis_inside x d a : axis_of x d = Ok a ->
  match a with Keep l => Forall (fun i => i < d) l | Drop i => i < d end.
Proof.
  destruct x as [s|i]; simpl.
  - intros H. apply bind_ok in H as (l & Hl & H). injection H as <-. apply Forall_forall. intros k Hk.
    apply in_map_iff in Hk as (z & <- & Hz). pose proof (slice_range_bounds _ _ _ Hl _ Hz). lia.
  - destruct (_ && _) eqn:Hj; [|discriminate]. intros H. injection H as <-. apply andb_true_iff in Hj as (H1 & H2).
    apply Z.leb_le in H1. apply Z.ltb_lt in H2. lia.
Qed.

Lemma source_inside : forall prs axes idx, mapM (fun p => axis_of (fst p) (snd p)) prs = Ok axes ->
  inside (kept axes) idx -> inside (map snd prs) (source axes idx).
Proof.
  induction prs as [|[x d] prs IH]; intros axes idx H Hi.
  - injection H as <-. constructor.
  - rewrite mapM_cons in H. apply bind_ok in H as (a & Ha & H). apply bind_ok in H as (q & Hq & H). injection H as <-.
    simpl in Ha. apply axis_inside in Ha. destruct a as [l|k]; simpl in Hi |- *.
    + inversion Hi as [|? i ? r Hi1 Hr]; subst. simpl. constructor; [|apply IH; assumption].
      rewrite Forall_forall in Ha. apply Ha. apply nth_In. exact Hi1.
    + constructor; [exact Ha|]. apply IH; assumption.
Qed.

Lemma complete_length index shape : length index <= length shape -> length (complete index shape) = length shape.
Proof. intros H. unfold complete. rewrite app_length, repeat_length. lia. Qed.

Lemma complete_all index shape : length index = length shape -> complete index shape = index.
Proof. intros H. unfold complete. rewrite H, Nat.sub_diag. apply app_nil_r. Qed.

Lemma map_snd_combine {A B} : forall (l : list A) (l' : list B), length l = length l' -> map snd (combine l l') = l'.
Proof. induction l; intros [|b l'] H; try discriminate; [reflexivity|]. simpl. f_equal. apply IHl. simpl in H. lia. Qed.
Lemma map_fst_combine {A B} : forall (l : list A) (l' : list B), length l = length l' -> map fst (combine l l') = l.
Proof. induction l; intros [|b l'] H; try discriminate; [reflexivity|]. simpl. f_equal. apply IHl. simpl in H. lia. Qed.

Lemma nd_same_index {V} (a b r : nd V) index : nd_same a b -> nd_index a index = Ok r ->
  exists r', nd_index b index = Ok r' /\ nd_same r r'.
Proof.
  intros (Hs & Hg) H. unfold nd_index in *. rewrite <- Hs. apply bind_ok in H as ([] & H1 & H).
  apply bind_ok in H as (axes & H2 & H). injection H as <-. rewrite H1. cbn [bind]. rewrite H2. cbn [bind].
  eexists. split; [reflexivity|]. split; [reflexivity|]. cbn [nd_shape nd_get]. intros idx Hi. apply Hg.
  apply check_ok in H1. apply Nat.leb_le in H1.
  pose proof (source_inside _ _ _ H2 Hi) as H3. rewrite map_snd_combine in H3 by (apply complete_length; exact H1). exact H3.
Qed.

Lemma nd_same_index_err {V} (a b : nd V) index e : nd_same a b -> nd_index a index = Err e -> nd_index b index = Err e.
Proof.
  intros (Hs & Hg) H. unfold nd_index in *. rewrite <- Hs. destruct (check _ _); [|assumption]. cbn [bind] in *.
  destruct (mapM _ _); [discriminate|assumption].
Qed.

Lemma nd_same_sym {V} (a b : nd V) : nd_same a b -> nd_same b a.
Proof. intros (H1 & H2). split; [auto|]. intros idx Hi. symmetry. apply H2. rewrite H1. exact Hi. Qed.
Lemma nd_same_trans {V} (a b c : nd V) : nd_same a b -> nd_same b c -> nd_same a c.
Proof. intros (H1 & H2) (H3 & H4). split; [congruence|]. intros idx Hi. rewrite H2 by exact Hi. apply H4. rewrite <- H1. exact Hi. Qed.

Lemma mapM_len {A B} (f : A -> res B) l r : mapM f l = Ok r -> length r = length l.
Proof. intros H. apply mapM_Forall2 in H. induction H; simpl; congruence. Qed.

Lemma proxy_nonempty {V} extract shape index pairs : shape <> [] -> length index <= length shape ->
  mapM (fun p => to_slice (fst p) (snd p)) (combine (complete index shape) shape) = Ok pairs ->
  proxy_get (V := V) extract shape index = (r <- extract (map fst pairs) ;; nd_index r (map snd pairs)).
Proof.
  intros Hs Hl H. unfold proxy_get. rewrite (proj2 (Nat.leb_le _ _) Hl). cbn [check bind]. rewrite H. cbn [bind].
  apply mapM_len in H. rewrite combine_length, complete_length, Nat.min_id in H by exact Hl.
  destruct pairs; [destruct shape; [congruence|discriminate]|]. reflexivity.
Qed.

(** the law, for the slices that the index leads to *)
Lemma proxy_law_at {V} extract (a : nd V) index : nd_shape a <> [] ->
  (forall pairs, length index <= length (nd_shape a) ->
    mapM (fun p => to_slice (fst p) (snd p)) (combine (complete index (nd_shape a)) (nd_shape a)) = Ok pairs ->
    exists r r', extract (map fst pairs) = Ok r /\ nd_index a (map IxSlice (map fst pairs)) = Ok r' /\ nd_same r r') ->
  match proxy_get extract (nd_shape a) index with
  | Ok r => exists r', nd_index a index = Ok r' /\ nd_same r r'
  | Err e => exists e', nd_index a index = Err e' /\ (Forall nonzero index -> e' = e)
  end.
Proof.
  intros Hs Hex. unfold nd_index. destruct (Nat.leb_spec (length index) (length (nd_shape a))) as [Hl|Hl].
  2: { unfold proxy_get. destruct (Nat.leb_spec (length index) (length (nd_shape a))); [lia|]. simpl. eauto. }
  cbn [check bind]. pose proof (complete_length index (nd_shape a) Hl) as Hcl.
  assert (Hz : Forall nonzero index -> Forall nonzero (map fst (combine (complete index (nd_shape a)) (nd_shape a)))).
  { intros Hz. rewrite map_fst_combine by exact Hcl. unfold complete. apply Forall_app. split; [exact Hz|].
    apply Forall_forall. intros y Hy. apply repeat_spec in Hy. subst. simpl. discriminate. }
  destruct (mapM (fun p => to_slice (fst p) (snd p)) (combine (complete index (nd_shape a)) (nd_shape a))) as [pairs|e] eqn:Hpairs.
  - rewrite (proxy_nonempty extract _ index pairs Hs Hl Hpairs).
    destruct (Hex _ Hl eq_refl) as (r & r' & H1 & H2 & H3). rewrite H1. cbn [bind].
    destruct (axes_ok _ _ Hpairs) as (_ & ls & H4 & H5 & H6).
    rewrite map_snd_combine in H4 by exact Hcl.
    assert (Hlp : length (map fst pairs) = length (nd_shape a)).
    { rewrite map_length. rewrite (mapM_len _ _ _ Hpairs), combine_length, Hcl. lia. }
    unfold nd_index in H2. rewrite map_length, Hlp, Nat.leb_refl in H2. cbn [check bind] in H2.
    rewrite complete_all in H2 by (rewrite map_length; exact Hlp). rewrite H4 in H2. cbn [bind] in H2. injection H2 as <-.
    rewrite kept_keep in H3.
    assert (Hls : length ls = length (nd_shape a)) by (rewrite H5, combine_length, Hcl; lia).
    assert (Hidx : nd_index {| nd_shape := map (length (A:=nat)) ls; nd_get := fun idx => nd_get a (source (map Keep ls) idx) |} (map snd pairs)
      = (as2 <- mapM (fun p => axis_of (fst p) (snd p)) (combine (map snd pairs) (map (@length nat) ls)) ;;
         Ok (mkNd (kept as2) (fun idx => nd_get a (source (map Keep ls) (source as2 idx)))))).
    { unfold nd_index. cbn [nd_shape nd_get]. rewrite map_length in Hlp. rewrite !map_length, Hlp, Hls, Nat.leb_refl. cbn [check bind].
      rewrite complete_all by (rewrite !map_length; lia). reflexivity. }
    destruct (mapM _ (combine (map snd pairs) (map (@length nat) ls))) as [as2|e2].
    + destruct H6 as (H6 & H7). rewrite H6. cbn [bind] in *.
      destruct (nd_same_index _ _ _ _ (nd_same_sym _ _ H3) Hidx) as (r2 & -> & H8).
      eexists. split; [reflexivity|]. apply nd_same_trans with (1 := nd_same_sym _ _ H8). split; cbn [nd_shape nd_get].
      * symmetry. apply kept_through. lia.
      * intros idx Hi. f_equal. apply source_through; [lia|exact Hi].
    + cbn [bind] in Hidx. rewrite (nd_same_index_err _ _ _ _ (nd_same_sym _ _ H3) Hidx).
      destruct H6 as (e' & -> & H6). cbn [bind]. exists e'. split; [reflexivity|]. intros Hnz. exfalso. apply H6. auto.
  - unfold proxy_get. rewrite (proj2 (Nat.leb_le _ _) Hl). cbn [check bind]. rewrite Hpairs. cbn [bind].
    destruct (axes_err_some _ _ Hpairs) as (e' & He'). rewrite He'. cbn [bind]. exists e'. split; [reflexivity|].
    intros Hnz. rewrite (axes_err _ _ Hpairs (Hz Hnz)) in He'. congruence.
Qed.

Lemma proxy_law {V} extract (a : nd V) index : nd_shape a <> [] ->
  extracts (fun s d => proper s d \/ s = full_slice) extract a ->
  match proxy_get extract (nd_shape a) index with
  | Ok r => exists r', nd_index a index = Ok r' /\ nd_same r r'
  | Err e => exists e', nd_index a index = Err e' /\ (Forall nonzero index -> e' = e)
  end.
Proof.
  intros Hs Hex. apply proxy_law_at; [exact Hs|]. intros pairs Hl Hp. apply Hex.
  destruct (axes_ok _ _ Hp) as (H & _).
  rewrite map_snd_combine in H by (apply complete_length; exact Hl). exact H.
Qed.

Lemma extract_positive {V} (extract : list pyslice -> res (nd V)) (a : nd V) index :
  nd_shape a <> [] -> extracts proper extract a -> length index = length (nd_shape a) -> Forall positive index ->
  match proxy_get extract (nd_shape a) index with
  | Ok r => exists r', nd_index a index = Ok r' /\ nd_same r r'
  | Err e => nd_index a index = Err e
  end.
Proof.
  intros Hs Hex Hl Hp. pose proof (proxy_law_at extract a index Hs) as H. lapply H; clear H.
  - intros H. destruct (proxy_get _ _ _) as [r|e]; [exact H|]. destruct H as (e' & H & He). rewrite H. f_equal. apply He.
    eapply Forall_impl; [|exact Hp]. intros [s|i]; simpl; [|auto]. destruct (sl_step s); [|discriminate]. intros Hc E. injection E. lia.
  - intros pairs _ H. apply Hex. rewrite complete_all in H by exact Hl.
    assert (E : forall prs q, mapM (fun p => to_slice (fst p) (snd p)) prs = Ok q -> Forall positive (map fst prs) ->
       Forall2 proper (map fst q) (map snd prs)).
    { clear. induction prs as [|[x d] prs IH]; intros q H Hp; [injection H as <-; constructor|].
      rewrite mapM_cons in H. apply bind_ok in H as ([s f] & Hs & H). apply bind_ok in H as (r & Hr & H). injection H as <-.
      inversion Hp as [|? ? Hx Hq]; subst. simpl in Hs, Hx. constructor; [|apply IH; assumption]. simpl.
      destruct (to_slice_ok _ _ _ _ Hs) as ([Hok| ->] & _); [exact Hok|exfalso].
      destruct x as [sl|i]; unfold to_slice in Hs; simpl in Hx.
      - replace (match sl_step sl with None => true | Some c => (0 <? c)%Z end) with true in Hs
          by (destruct (sl_step sl); [symmetry; apply Z.ltb_lt; exact Hx|reflexivity]).
        destruct (slice_indices sl (Z.of_nat d)) as [[[? ?] ?]|]; discriminate.
      - cbv zeta in Hs. destruct (_ && _); discriminate. }
    specialize (E _ _ H). rewrite map_fst_combine, map_snd_combine in E by exact Hl. apply E. exact Hp.
Qed.

