(** Proofs about samples stored in binary files. *)
From Verif Require Import Base BaseLemmas SliceLemmas ProxyModel SpecProxy ProxyProofs.

Lemma bound_slice s n a b c : slice_indices s (Z.of_nat n) = Ok (a, b, c) ->
  match sl_step s with Some c => (0 < c)%Z | None => True end ->
  (0 < c)%Z /\ a = match sl_start s with Some a => bound (Z.of_nat n) a | None => 0%Z end /\
  b = match sl_stop s with Some b => bound (Z.of_nat n) b | None => Z.of_nat n end.
Proof.
  intros H Hp. assert (Hc : (0 < c)%Z). { rewrite (slice_indices_step _ _ _ _ _ H). destruct (sl_step s); [exact Hp|lia]. }
  split; [exact Hc|]. unfold slice_indices in H. set (step := match sl_step s with Some s => s | None => 1%Z end) in H.
  destruct (Z.eqb_spec step 0); [discriminate|]. injection H as Ha Hb Hc'. subst c.
  destruct (Z.ltb_spec step 0); [lia|]. subst a b. unfold bound.
  split.
  - destruct (sl_start s) as [i|]; [|reflexivity].
    destruct (Z.ltb_spec i 0); [destruct (Z.ltb_spec (i + Z.of_nat n) 0); lia|destruct (Z.leb_spec (Z.of_nat n) i); lia].
  - destruct (sl_stop s) as [i|]; [|reflexivity].
    destruct (Z.ltb_spec i 0); [destruct (Z.ltb_spec (i + Z.of_nat n) 0); lia|destruct (Z.leb_spec (Z.of_nat n) i); lia].
Qed.

Lemma slice_indices_some s n : match sl_step s with Some c => (0 < c)%Z | None => True end ->
  exists a b c, slice_indices s n = Ok (a, b, c).
Proof.
  intros H. unfold slice_indices. destruct (sl_step s) as [c|]; [destruct (Z.eqb_spec c 0); [lia|]|]; simpl; eauto.
Qed.

Lemma zrange_shift a b c : zrange a b c = map (fun z => (a + z)%Z) (zrange 0 (b - a) c).
Proof.
  unfold zrange. rewrite map_map. unfold range_len. rewrite !Z.sub_0_r.
  replace (0 - (b - a))%Z with (a - b)%Z by lia. apply map_ext. intros; lia.
Qed.

Section File.
Context {V : Type} (dflt : V) (item : nat) (enc : V -> bytes) (dec : bytes -> V) (good : V -> Prop).
Hypothesis HC : codec item enc dec good.

Lemma concat_length xs : Forall good xs -> length (concat (map enc xs)) = item * length xs.
Proof. induction 1 as [|x xs Hx H IH]; simpl; [lia|]. rewrite app_length, IH, (co_len _ _ _ _ HC x Hx). lia. Qed.

Lemma skip_samples : forall i xs rest, Forall good xs -> i <= length xs ->
  skipn (item * i) (concat (map enc xs) ++ rest) = concat (map enc (skipn i xs)) ++ rest.
Proof.
  induction i as [|i IH]; intros xs rest Hg Hi.
  - rewrite Nat.mul_0_r. reflexivity.
  - destruct xs as [|x xs]; [simpl in Hi; lia|]. inversion Hg; subst. simpl in Hi. simpl concat. simpl skipn. rewrite <- app_assoc.
    rewrite Nat.mul_succ_r, Nat.add_comm.
    rewrite <- (co_len _ _ _ _ HC x) at 1 by assumption.
    rewrite skipn_app. rewrite (skipn_all2 (enc x)) by lia. simpl app.
    replace (length (enc x) + item * i - length (enc x)) with (item * i) by lia. apply IH; [assumption|lia].
Qed.

Lemma first_sample x xs rest : good x -> dec (firstn item (concat (map enc (x :: xs)) ++ rest)) = x.
Proof.
  intros Hx. simpl. rewrite <- app_assoc. rewrite <- (co_len _ _ _ _ HC x Hx). rewrite firstn_app, Nat.sub_diag, firstn_all. simpl.
  rewrite app_nil_r. apply (co_dec _ _ _ _ HC). exact Hx.
Qed.

Variable (offset : Z) (file : bytes) (xs : list V).
Hypothesis Hst : stored enc item offset file xs.
Hypothesis Hgood : Forall good xs.

Lemma file_size : ((Z.of_nat (length file) - offset) / Z.of_nat item = Z.of_nat (length xs))%Z.
Proof.
  destruct Hst as (h & t & -> & Hh & Ht). rewrite !app_length, concat_length by exact Hgood.
  replace (Z.of_nat (length h + (item * length xs + length t)) - offset)%Z
    with (Z.of_nat (length t) + Z.of_nat (length xs) * Z.of_nat item)%Z by lia.
  pose proof (co_item _ _ _ _ HC). rewrite Z.div_add by lia. rewrite Z.div_small by lia. lia.
Qed.

Lemma bin_new_ok size p : bin_new file offset size item dec = Ok p <->
  (0 < Z.min size (Z.of_nat (length xs)))%Z /\
  p = mkBin file offset item dec (Z.to_nat (Z.min size (Z.of_nat (length xs)))).
Proof.
  unfold bin_new, real_size. rewrite file_size.
  replace (if (Z.of_nat (length xs) <? size)%Z then Z.of_nat (length xs) else size) with (Z.min size (Z.of_nat (length xs)))
    by (destruct (Z.ltb_spec (Z.of_nat (length xs)) size); lia).
  cbv zeta. unfold proxy_shape_ok. cbn [forallb]. rewrite andb_true_r. split.
  - intros H. apply bind_ok in H as ([] & H & Hp). apply check_ok, Z.ltb_lt in H. injection Hp as <-. auto.
  - intros (H & ->). apply Z.ltb_lt in H. rewrite H. reflexivity.
Qed.

Lemma read_range n a b : n <= length xs -> (0 <= a <= b)%Z -> (b <= Z.of_nat n)%Z ->
  fromfile (mkBin file offset item dec n) (Z.to_nat (offset + Z.of_nat item * a)) (b - a)
  = firstn (Z.to_nat (b - a)) (skipn (Z.to_nat a) xs).
Proof.
  intros Hn Hab Hb. pose proof (co_item _ _ _ _ HC) as Hk. destruct Hst as (h & t & Hf & Hh & Ht).
  unfold fromfile. cbn [bf_bytes bf_item bf_dec].
  assert (Hrest : skipn (Z.to_nat (offset + Z.of_nat item * a)) file = concat (map enc (skipn (Z.to_nat a) xs)) ++ t).
  { replace (Z.to_nat (offset + Z.of_nat item * a)) with (length h + item * Z.to_nat a) by nia.
    rewrite Hf. rewrite skipn_app. rewrite skipn_all2 by lia. simpl.
    replace (length h + item * Z.to_nat a - length h) with (item * Z.to_nat a) by lia. apply skip_samples; [exact Hgood|lia]. }
  rewrite Hrest.
  assert (Hg : Forall good (skipn (Z.to_nat a) xs)).
  { apply Forall_forall. intros y Hy. rewrite Forall_forall in Hgood. apply Hgood.
    rewrite <- (firstn_skipn (Z.to_nat a) xs). apply in_or_app. right. exact Hy. }
  assert (Hav : length (concat (map enc (skipn (Z.to_nat a) xs)) ++ t) / item = length xs - Z.to_nat a).
  { rewrite app_length, concat_length by exact Hg. rewrite skipn_length, Nat.mul_comm, Nat.add_comm, Nat.div_add by lia.
    rewrite Nat.div_small by lia. lia. }
  rewrite Hav. destruct (Z.ltb_spec (b - a) 0); [lia|]. rewrite Nat.min_l by lia.
  apply nth_error_ext. intros i. rewrite nth_error_map, nth_error_seq.
  destruct (Nat.ltb_spec i (Z.to_nat (b - a))) as [Hi|Hi].
  - simpl. rewrite skip_samples by (try exact Hg; rewrite skipn_length; lia).
    destruct (skipn i (skipn (Z.to_nat a) xs)) as [|x rest] eqn:Hs.
    { apply (f_equal (@length V)) in Hs. rewrite !skipn_length in Hs. simpl in Hs. lia. }
    assert (Hx : nth_error (skipn (Z.to_nat a) xs) i = Some x).
    { rewrite <- (firstn_skipn i (skipn (Z.to_nat a) xs)), Hs. rewrite nth_error_app2; rewrite firstn_length, skipn_length; [|lia].
      replace (i - Nat.min i (length xs - Z.to_nat a)) with 0 by lia. reflexivity. }
    rewrite first_sample. 2: { rewrite Forall_forall in Hg. apply Hg. eapply nth_error_In. exact Hx. }
    symmetry. rewrite <- Hx. revert Hi. generalize (Z.to_nat (b - a)) (skipn (Z.to_nat a) xs) i. clear.
    induction n as [|n IH]; intros l [|i] Hi; try lia; destruct l; simpl; try reflexivity. apply IH. lia.
  - simpl. symmetry. apply nth_error_None. rewrite firstn_length. lia.
Qed.

Lemma nth_firstn_skipn {A} (l : list A) d : forall n a k, k < n -> nth k (firstn n (skipn a l)) d = nth (a + k) l d.
Proof.
  intros n a k Hk. revert n k Hk l. induction a as [|a IH]; intros n k Hk l.
  - simpl. revert n Hk l. induction k as [|k IH]; intros [|n] Hk [|x l]; try lia; try reflexivity. simpl. apply IH. lia.
  - destruct l; [rewrite skipn_nil, firstn_nil; destruct k; reflexivity|]. simpl. apply IH. exact Hk.
Qed.

Lemma bin_extract_ok n a b c : n <= length xs -> (0 <= a <= b)%Z -> (b <= Z.of_nat n)%Z -> (0 < c)%Z ->
  exists r r', bin_extract dflt (mkBin file offset item dec n) [mkSlice (Some a) (Some b) (Some c)] = Ok r /\
  nd_index (nd_of_list dflt (firstn n xs)) [IxSlice (mkSlice (Some a) (Some b) (Some c))] = Ok r' /\ nd_same r r'.
Proof.
  intros Hn Hab Hb Hc. unfold bin_extract. cbn [sl_start sl_stop sl_step bf_offset bf_item].
  assert (Hoff : (0 <= offset)%Z). { destruct Hst as (h & t & _ & Hh & _). lia. }
  replace (0 <=? offset + Z.of_nat item * a)%Z with true by (symmetry; apply Z.leb_le; nia). cbn [check bind].
  rewrite read_range by assumption. set (arr := firstn (Z.to_nat (b - a)) (skipn (Z.to_nat a) xs)).
  assert (Hlen : Z.of_nat (length arr) = (b - a)%Z). { unfold arr. rewrite firstn_length, skipn_length. lia. }
  rewrite (proj2 (Z.eqb_eq _ _) Hlen). cbn [check bind].
  assert (Hn' : length (firstn n xs) = n) by (rewrite firstn_length; lia).
  assert (H1 : slice_range (mkSlice None None (Some c)) (length arr) = Ok (zrange 0 (b - a) c)).
  { unfold slice_range, slice_indices. simpl. destruct (Z.eqb_spec c 0); [lia|]. destruct (Z.ltb_spec c 0); [lia|]. rewrite Hlen. reflexivity. }
  assert (H2 : slice_range (mkSlice (Some a) (Some b) (Some c)) n = Ok (zrange a b c)).
  { unfold slice_range, slice_indices. simpl. destruct (Z.eqb_spec c 0); [lia|]. destruct (Z.ltb_spec c 0); [lia|].
    destruct (Z.ltb_spec a 0); [lia|]. destruct (Z.ltb_spec b 0); [lia|].
    replace (if (Z.of_nat n <=? a)%Z then Z.of_nat n else a) with a by (destruct (Z.leb_spec (Z.of_nat n) a); lia).
    replace (if (Z.of_nat n <=? b)%Z then Z.of_nat n else b) with b by (destruct (Z.leb_spec (Z.of_nat n) b); lia). reflexivity. }
  unfold nd_index, nd_of_list. cbn [nd_shape nd_get complete]. simpl (length [_] <=? length [_]). cbn [check bind].
  rewrite !complete_all by reflexivity. simpl combine. rewrite !mapM_cons. cbn [fst snd]. rewrite Hn'.
  rewrite (slice_range_length _ _ _ H1), (slice_range_length _ _ _ H2). cbn [bind mapM]. do 2 eexists. split; [reflexivity|]. split; [reflexivity|].
  rewrite (zrange_shift a b c). set (zs := zrange 0 (b - a) c).
  assert (Hzs : forall z, In z zs -> (0 <= z < b - a)%Z).
  { intros z Hz. apply zrange_In in Hz as [(_ & Hz & _)|(Hz & _)]; lia. }
  split; cbn [nd_shape nd_get kept flat_map app].
  - rewrite !map_length. reflexivity.
  - intros idx Hi. inversion Hi as [|? k ? r Hk Hr]; subst. simpl. rewrite map_length in Hk.
    rewrite map_map. destruct (nth_error zs k) as [z|] eqn:Hz; [|apply nth_error_None in Hz; lia].
    assert (E : forall g : Z -> nat, nth k (map g zs) 0 = g z).
    { intros g. apply nth_error_nth. rewrite nth_error_map, Hz. reflexivity. }
    rewrite !E. apply nth_error_In, Hzs in Hz. unfold arr. rewrite nth_firstn_skipn by lia.
    change (firstn n xs) with (firstn n (skipn 0 xs)). rewrite nth_firstn_skipn by lia. f_equal. lia.
Qed.
End File.

(** ** What the proxy of a file returns *)
Lemma index_list_slice {V} (dflt : V) l s l' : py_slice l s = Ok l' ->
  exists r, nd_index (nd_of_list dflt l) [IxSlice s] = Ok r /\ lists r l'.
Proof.
  intros H. unfold py_slice in H. apply bind_ok in H as (zs & Hzs & H).
  unfold nd_index, nd_of_list. cbn [nd_shape nd_get]. simpl (length [_] <=? length [_]). cbn [check bind].
  rewrite complete_all by reflexivity. simpl combine. rewrite mapM_cons. cbn [fst snd].
  rewrite (slice_range_length _ _ _ Hzs). cbn [bind mapM]. eexists. split; [reflexivity|].
  pose proof (mapM_len _ _ _ H) as Hl. split; cbn [nd_shape nd_get kept flat_map app].
  - rewrite map_length. congruence.
  - intros i x Hx. simpl. apply mapM_Forall2 in H. 
    destruct (Forall2_nth_error_r _ _ _ _ _ H Hx) as (z & Hz & Hzx).
    erewrite nth_error_nth with (l := map Z.to_nat zs); [|rewrite nth_error_map, Hz; reflexivity].
    unfold znth_res in Hzx. destruct (z <? 0)%Z; [discriminate|]. apply of_option_ok in Hzx. apply nth_error_nth. exact Hzx.
Qed.

Lemma index_list_int {V} (dflt : V) l i : 
  match nd_index (nd_of_list dflt l) [IxInt i] with
  | Ok r => exists x, py_nth l i = Ok x /\ scalar r x
  | Err e => py_nth l i = Err e /\ e = IndexError
  end.
Proof.
  unfold nd_index, nd_of_list. cbn [nd_shape nd_get]. simpl (length [_] <=? length [_]). cbn [check bind].
  rewrite complete_all by reflexivity. simpl combine. rewrite mapM_cons. cbn [fst snd]. unfold axis_of, py_nth, znth_res. cbv zeta.
  set (j := if (i <? 0)%Z then _ else _). destruct (Z.leb_spec 0 j) as [H0|H0]; cbn [andb].
  - destruct (Z.ltb_spec j 0); [lia|]. destruct (Z.ltb_spec j (Z.of_nat (length l))) as [H1|H1]; cbn [bind mapM].
    + unfold nth_res. destruct (nth_error l (Z.to_nat j)) as [x|] eqn:Hx; [|apply nth_error_None in Hx; lia].
      exists x. split; [reflexivity|]. split; [reflexivity|]. simpl. apply nth_error_nth. exact Hx.
    + unfold nth_res. rewrite (proj2 (nth_error_None _ _)) by lia. auto.
  - destruct (Z.ltb_spec j 0); [|lia]. simpl. auto.
Qed.

Lemma same_lists {V} (a b : nd V) l : nd_same a b -> lists b l -> lists a l.
Proof.
  intros (H1 & H2) (H3 & H4). split; [congruence|]. intros i x Hx. rewrite H2; [apply H4; exact Hx|].
  rewrite H1, H3. constructor; [|constructor]. apply nth_error_Some. congruence.
Qed.
Lemma same_scalar {V} (a b : nd V) x : nd_same a b -> scalar b x -> scalar a x.
Proof. intros (H1 & H2) (H3 & H4). split; [congruence|]. rewrite H2; [exact H4|]. rewrite H1, H3. constructor. Qed.

Section Get.
Context {V : Type} (dflt : V) (item : nat) (enc : V -> bytes) (dec : bytes -> V) (good : V -> Prop).
Hypothesis HC : codec item enc dec good.
Variables (offset : Z) (file : bytes) (xs : list V) (n : nat).
Hypothesis Hst : stored enc item offset file xs.
Hypothesis Hgood : Forall good xs.
Hypothesis Hn : n <= length xs.
Notation p := (mkBin file offset item dec n).

Lemma bin_law x : match x with IxSlice s => forward s n | IxInt _ => True end ->
  match bin_get dflt p [x] with
  | Ok r => exists r', nd_index (nd_of_list dflt (firstn n xs)) [x] = Ok r' /\ nd_same r r'
  | Err e => nd_index (nd_of_list dflt (firstn n xs)) [x] = Err e
  end.
Proof.
  intros Hf. assert (Hn' : length (firstn n xs) = n) by (rewrite firstn_length; lia).
  assert (Hsh : nd_shape (nd_of_list dflt (firstn n xs)) = [n]) by (simpl; rewrite Hn'; reflexivity).
  pose proof (proxy_law_at (bin_extract dflt (mkBin file offset item dec n)) (nd_of_list dflt (firstn n xs)) [x]) as H.
  rewrite Hsh in H. specialize (H ltac:(discriminate)). unfold bin_get. change (bf_size p) with n.
  lapply H; clear H.
  - intros H. destruct (proxy_get _ _ _) as [r|e]; [exact H|]. destruct H as (e' & H & He). rewrite H. f_equal. apply He.
    constructor; [|constructor]. destruct x as [s|]; [|exact I]. destruct Hf as (Hf & _). simpl. destruct (sl_step s); [|discriminate]. intros Hc. injection Hc. lia.
  - intros pairs Hl Hp. rewrite complete_all in Hp by reflexivity. simpl combine in Hp. rewrite mapM_cons in Hp. cbn [fst snd] in Hp.
    apply bind_ok in Hp as ([s f] & Hs & Hp). injection Hp as <-. cbn [map fst].
    assert (E : exists a b c, s = mkSlice (Some a) (Some b) (Some c) /\ (0 <= a <= b)%Z /\ (b <= Z.of_nat n)%Z /\ (0 < c)%Z).
    { destruct x as [sl|i]; unfold to_slice in Hs.
      - destruct Hf as (Hf & Hle).
        replace (match sl_step sl with None => true | Some c => (0 <? c)%Z end) with true in Hs
          by (destruct (sl_step sl); [symmetry; apply Z.ltb_lt; exact Hf|reflexivity]).
        apply bind_ok in Hs as ([[a b] c] & Hs & H). injection H as <- <-.
        destruct (bound_slice _ _ _ _ _ Hs Hf) as (Hc & Ha & Hb).
        destruct (slice_indices_bounds sl (Z.of_nat n) _ _ _ ltac:(lia) Hs) as (_ & Hbd & _). specialize (Hbd Hc).
        exists a, b, c. rewrite <- Ha, <- Hb in Hle. intuition lia.
      - cbv zeta in Hs. set (j := if (i <? 0)%Z then _ else _) in Hs. destruct (_ && _) eqn:Hj in Hs; [|discriminate].
        injection Hs as <- <-. apply andb_true_iff in Hj as (H1 & H2). apply Z.leb_le in H1. apply Z.ltb_lt in H2.
        exists j, (j + 1)%Z, 1%Z. intuition lia. }
    destruct E as (a & b & c & -> & Hab & Hb & Hc). apply (bin_extract_ok dflt item enc dec good HC offset file xs Hst Hgood); assumption.
Qed.

Lemma forward_slice s : forward s n -> exists l, py_slice (firstn n xs) s = Ok l.
Proof.
  intros (Hf & _). unfold py_slice. assert (Hn' : length (firstn n xs) = n) by (rewrite firstn_length; lia). rewrite Hn'.
  destruct (slice_indices_some s (Z.of_nat n) Hf) as (a & b & c & Hs).
  destruct (slice_range s n) as [zs|e] eqn:Hz; [|unfold slice_range in Hz; rewrite Hs in Hz; discriminate].
  cbn [bind]. apply mapM_ok_exists. intros z Hin. pose proof (slice_range_bounds _ _ _ Hz _ Hin). unfold znth_res.
  destruct (Z.ltb_spec z 0); [lia|]. unfold nth_res.
  destruct (nth_error (firstn n xs) (Z.to_nat z)) eqn:E; [eexists; reflexivity|apply nth_error_None in E; lia].
Qed.

Lemma bin_slice s : forward s n -> exists r l, bin_get dflt p [IxSlice s] = Ok r /\ py_slice (firstn n xs) s = Ok l /\ lists r l.
Proof.
  intros Hf. destruct (forward_slice s Hf) as (l & Hl). destruct (index_list_slice dflt _ _ _ Hl) as (r' & Hr' & Hls).
  pose proof (bin_law (IxSlice s) Hf) as H. destruct (bin_get _ _ _) as [r|e]; [|congruence].
  destruct H as (r2 & H & Hsame). rewrite Hr' in H. injection H as <-. exists r, l. split; [reflexivity|]. split; [exact Hl|].
  eapply same_lists; eassumption.
Qed.

Lemma bin_int i : match bin_get dflt p [IxInt i] with
  | Ok r => exists x, py_nth (firstn n xs) i = Ok x /\ scalar r x
  | Err e => py_nth (firstn n xs) i = Err e /\ e = IndexError end.
Proof.
  pose proof (bin_law (IxInt i) I) as H. pose proof (index_list_int dflt (firstn n xs) i) as H2.
  destruct (bin_get _ _ _) as [r|e].
  - destruct H as (r' & H & Hs). rewrite H in H2. destruct H2 as (x & H2 & H3). exists x. split; [exact H2|]. eapply same_scalar; eassumption.
  - rewrite H in H2. exact H2.
Qed.
End Get.

(** ** Where files differ from arrays *)
Lemma fromfile_all {V} (p : binfile V) pos count : (Z.of_nat (length (fromfile p pos count)) =? count)%Z = true -> (0 <= count)%Z.
Proof. intros H. apply Z.eqb_eq in H. lia. Qed.

Lemma bin_reversed {V} (dflt : V) p s a b c : slice_indices s (Z.of_nat (bf_size p)) = Ok (a, b, c) -> (0 < c)%Z -> (b < a)%Z ->
  (0 <= bf_offset p)%Z -> bin_get dflt p [IxSlice s] = Err OtherException.
Proof.
  intros Hs Hc Hab Ho. unfold bin_get, proxy_get. simpl (length [_] <=? length [_]). cbn [check bind]. rewrite complete_all by reflexivity.
  simpl combine. rewrite mapM_cons. cbn [fst snd]. unfold to_slice.
  pose proof (slice_indices_step _ _ _ _ _ Hs) as Hst.
  replace (match sl_step s with None => true | Some c => (0 <? c)%Z end) with true
    by (symmetry; destruct (sl_step s); [apply Z.ltb_lt; subst; exact Hc|reflexivity]).
  rewrite Hs. cbn [bind mapM map fst snd length Nat.eqb negb check]. unfold bin_extract. cbn [sl_start sl_stop sl_step].
  destruct (slice_indices_bounds s (Z.of_nat (bf_size p)) _ _ _ ltac:(lia) Hs) as (_ & Hp & _). specialize (Hp Hc).
  replace (0 <=? bf_offset p + Z.of_nat (bf_item p) * a)%Z with true by (symmetry; apply Z.leb_le; nia). cbn [check bind].
  destruct (_ =? b - a)%Z eqn:E; [|reflexivity]. apply fromfile_all in E. lia.
Qed.

Lemma bin_backward {V} (dflt : V) p s c : sl_step s = Some c -> (c <= 0)%Z -> bin_get dflt p [IxSlice s] = Err TypeError.
Proof.
  intros Hs Hc. unfold bin_get, proxy_get. simpl (length [_] <=? length [_]). cbn [check bind]. rewrite complete_all by reflexivity.
  simpl combine. rewrite mapM_cons. cbn [fst snd]. unfold to_slice. rewrite Hs.
  destruct (Z.ltb_spec 0 c); [lia|]. reflexivity.
Qed.
