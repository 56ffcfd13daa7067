(** Proofs about file arrays. *)
From Verif Require Import Base BaseLemmas SliceLemmas PathModel SpecPath NormProofs ProxyModel SpecProxy ProxyProofs BinProofs FileModel SpecFile.

Lemma place_abspath cwd name path : at_place cwd name path -> abspath cwd name = path.
Proof.
  intros (N & [(r & -> & ->)|(Hn & Hs & J)]).
  - unfold abspath. change (is c_slash c_slash) with true. cbv iota. apply normal_fixed, N.
  - destruct name as [|c name]; [congruence|]. cbn [hd_error] in Hs.
    assert (Hc : is c c_slash = false). { unfold is. apply Ascii.eqb_neq. congruence. }
    unfold abspath. rewrite Hc. unfold os_join. rewrite Hc. destruct J as [[-> ->]|(d & e & -> & He & ->)].
    + cbn [rev app]. change (is c_slash c_slash) with true. cbv iota. apply normal_fixed, N.
    + rewrite rev_app_distr. cbn [rev app].
      assert (He' : is e c_slash = false). { unfold is. apply Ascii.eqb_neq. exact He. }
      rewrite He'. apply normal_fixed, N.
Qed.

Lemma proxy_slice {V} (ext : list pyslice -> res (nd V)) n s a b c : slice_indices s (Z.of_nat n) = Ok (a, b, c) -> (0 < c)%Z ->
  proxy_get ext [n] [IxSlice s] = (r <- ext [mkSlice (Some a) (Some b) (Some c)] ;; nd_index r [ix_full]).
Proof.
  intros Hs Hc. unfold proxy_get. simpl (length [_] <=? length [_]). cbn [check bind]. rewrite complete_all by reflexivity.
  simpl combine. rewrite mapM_cons. cbn [fst snd]. unfold to_slice. pose proof (slice_indices_step _ _ _ _ _ Hs) as Hst.
  replace (match sl_step s with None => true | Some c => (0 <? c)%Z end) with true
    by (symmetry; destruct (sl_step s); [apply Z.ltb_lt; subst; exact Hc|reflexivity]).
  rewrite Hs. cbn [bind mapM map fst snd length Nat.eqb negb check]. reflexivity.
Qed.
Lemma proxy_int {V} (ext : list pyslice -> res (nd V)) n i : (0 <= i < Z.of_nat n)%Z ->
  proxy_get ext [n] [IxInt i] = (r <- ext [mkSlice (Some i) (Some (i + 1)%Z) (Some 1%Z)] ;; nd_index r [IxInt 0]).
Proof.
  intros Hi. unfold proxy_get. simpl (length [_] <=? length [_]). cbn [check bind]. rewrite complete_all by reflexivity.
  simpl combine. rewrite mapM_cons. cbn [fst snd]. unfold to_slice. cbv zeta.
  replace (i <? 0)%Z with false by (symmetry; apply Z.ltb_ge; lia).
  replace (0 <=? i)%Z with true by (symmetry; apply Z.leb_le; lia). replace (i <? Z.of_nat n)%Z with true by (symmetry; apply Z.ltb_lt; lia).
  cbn [andb bind mapM map fst snd length Nat.eqb negb check]. reflexivity.
Qed.
Lemma proxy_int_wrap {V} (ext : list pyslice -> res (nd V)) n i : (- Z.of_nat n <= i < 0)%Z -> proxy_get ext [n] [IxInt i] = proxy_get ext [n] [IxInt (i + Z.of_nat n)].
Proof.
  intros Hi. unfold proxy_get. simpl (length [_] <=? length [_]). cbn [check bind]. rewrite !complete_all by reflexivity.
  simpl combine. rewrite !mapM_cons. cbn [fst snd]. unfold to_slice. cbv zeta.
  replace (i <? 0)%Z with true by (symmetry; apply Z.ltb_lt; lia). replace (i + Z.of_nat n <? 0)%Z with false by (symmetry; apply Z.ltb_ge; lia). reflexivity.
Qed.
Lemma proxy_int_out {V} (ext : list pyslice -> res (nd V)) n i : (i < - Z.of_nat n \/ Z.of_nat n <= i)%Z -> proxy_get ext [n] [IxInt i] = Err IndexError.
Proof.
  intros Hi. unfold proxy_get. simpl (length [_] <=? length [_]). cbn [check bind]. rewrite complete_all by reflexivity.
  simpl combine. rewrite mapM_cons. cbn [fst snd]. unfold to_slice. cbv zeta.
  destruct (Z.ltb_spec i 0).
  - replace (0 <=? i + Z.of_nat n)%Z with false by (symmetry; apply Z.leb_gt; lia). reflexivity.
  - replace (i <? Z.of_nat n)%Z with false by (symmetry; apply Z.ltb_ge; lia). rewrite andb_false_r. reflexivity.
Qed.

Lemma explicit_slice a b c n : (0 <= a <= n)%Z -> (0 <= b <= n)%Z -> (0 < c)%Z -> slice_indices (mkSlice (Some a) (Some b) (Some c)) n = Ok (a, b, c).
Proof.
  intros Ha Hb Hc. unfold slice_indices. cbn [sl_start sl_stop sl_step]. destruct (Z.eqb_spec c 0); [lia|]. destruct (Z.ltb_spec c 0); [lia|].
  destruct (Z.ltb_spec a 0); [lia|]. destruct (Z.ltb_spec b 0); [lia|].
  replace (if (n <=? a)%Z then n else a) with a by (destruct (Z.leb_spec n a); lia).
  replace (if (n <=? b)%Z then n else b) with b by (destruct (Z.leb_spec n b); lia). reflexivity.
Qed.

Lemma nd_of_nil {V} (dflt : V) c : (0 < c)%Z -> exists r, nd_index (nd_of_list dflt []) [IxSlice (mkSlice None None (Some c))] = Ok r /\ nd_shape r = [0].
Proof.
  intros Hc. assert (H : py_slice (@nil V) (mkSlice None None (Some c)) = Ok []).
  { unfold py_slice, slice_range, slice_indices. cbn [sl_start sl_stop sl_step length Z.of_nat]. destruct (Z.eqb_spec c 0); [lia|]. destruct (Z.ltb_spec c 0); [lia|].
    cbn [bind]. unfold zrange, range_len. destruct (Z.ltb_spec 0 c); [|lia]. replace (Z.to_nat ((0 - 0 + c - 1) / c)) with 0; [reflexivity|].
    symmetry. assert ((0 - 0 + c - 1) / c = 0)%Z by (apply Z.div_small; lia). lia. }
  destruct (index_list_slice dflt _ _ _ H) as (r & Hr & Hl & _). exists r. auto.
Qed.
Lemma index_full_same {V} (r : nd V) n : nd_shape r = [n] -> exists r', nd_index r [ix_full] = Ok r' /\ nd_same r' r.
Proof.
  intros Hr. unfold nd_index. rewrite Hr. simpl (length [_] <=? length [_]). cbn [check bind]. rewrite complete_all by reflexivity.
  simpl combine. rewrite mapM_cons. cbn [fst snd]. rewrite axis_full. cbn [bind mapM]. eexists. split; [reflexivity|].
  split; cbn [nd_shape nd_get kept flat_map app]; [rewrite seq_length; congruence|].
  intros idx Hi. inversion Hi as [|? k ? l Hk Hl]; subst. inversion Hl; subst. simpl. rewrite seq_length in Hk. rewrite seq_nth by exact Hk. reflexivity.
Qed.

Section File.
Context {V : Type} (dflt : V) (item : nat) (enc : V -> bytes) (dec : bytes -> V) (good : V -> Prop).
Hypothesis HC : codec item enc dec good.

Lemma short_read offset content xs n a b : stored enc item offset content xs -> Forall good xs -> (0 <= a < b)%Z -> (Z.of_nat (length xs) < b)%Z ->
  (Z.of_nat (length (fromfile (mkBin content offset item dec n) (Z.to_nat (offset + Z.of_nat item * a)) (b - a))) < b - a)%Z.
Proof.
  intros Hst Hg Hab Hb. pose proof (co_item _ _ _ _ HC) as Hk. destruct Hst as (h & t & -> & Hh & Ht).
  unfold fromfile. cbn [bf_bytes bf_item bf_dec]. rewrite map_length, seq_length. replace (b - a <? 0)%Z with false by (symmetry; apply Z.ltb_ge; lia).
  rewrite skipn_length, !app_length, (concat_length item enc dec good HC) by exact Hg.
  set (L := length h + (item * length xs + length t) - Z.to_nat (offset + Z.of_nat item * a)).
  assert (HL : L / item <= length xs - Z.to_nat a).
  { destruct (le_lt_dec (Z.to_nat a) (length xs)) as [D|D].
    - replace L with (length t + (length xs - Z.to_nat a) * item) by nia. rewrite Nat.div_add, Nat.div_small by lia. lia.
    - rewrite Nat.div_small by nia. lia. }
  lia.
Qed.

Lemma read_slice offset content xs n m s a b c : stored enc item offset content xs -> Forall good xs ->
  slice_indices s (Z.of_nat n) = Ok (a, b, c) -> (0 < c)%Z -> (a <= b)%Z ->
  let got := proxy_get (bin_extract dflt (mkBin content offset item dec m)) [n] [IxSlice s] in
  ((b <= Z.of_nat (length xs))%Z \/ a = b -> exists r l, got = Ok r /\ py_slice xs (mkSlice (Some a) (Some b) (Some c)) = Ok l /\ lists r l) /\
  ((Z.of_nat (length xs) < b)%Z -> (a < b)%Z -> got = Err OtherException).
Proof.
  intros Hst Hg Hs Hc Hab. destruct (slice_indices_bounds s (Z.of_nat n) _ _ _ ltac:(lia) Hs) as (_ & Hp & _). specialize (Hp Hc).
  assert (Hoff : (0 <= offset)%Z) by (destruct Hst as (h & t & _ & Hh & _); lia).
  cbv zeta. rewrite (proxy_slice _ _ _ _ _ _ Hs Hc). split.
  - intros Hor. destruct (Z.le_gt_cases b (Z.of_nat (length xs))) as [Hb|Hb].
    + rewrite <- (proxy_slice _ (length xs) (mkSlice (Some a) (Some b) (Some c)) a b c (explicit_slice a b c (Z.of_nat (length xs)) ltac:(lia) ltac:(lia) Hc) Hc).
      change (bin_extract dflt (mkBin content offset item dec m)) with (bin_extract dflt (mkBin content offset item dec (length xs))).
      destruct (bin_slice dflt item enc dec good HC offset content xs (length xs) Hst Hg ltac:(lia) (mkSlice (Some a) (Some b) (Some c))) as (r & l & H1 & H2 & H3).
      { split; cbn [sl_step sl_start sl_stop]; [exact Hc|]. unfold bound. destruct (Z.ltb_spec a 0); [lia|]. destruct (Z.ltb_spec b 0); [lia|]. lia. }
      rewrite firstn_all in H2. exists r, l. auto.
    + destruct Hor as [Hor|Hor]; [lia|]. subst b.
      assert (E : bin_extract dflt (mkBin content offset item dec m) [mkSlice (Some a) (Some a) (Some c)] =
                  nd_index (nd_of_list dflt []) [IxSlice (mkSlice None None (Some c))]).
      { unfold bin_extract. cbn [sl_start sl_stop sl_step bf_offset bf_item]. replace (0 <=? offset + Z.of_nat item * a)%Z with true by (symmetry; apply Z.leb_le; nia).
        cbn [check bind]. rewrite Z.sub_diag. unfold fromfile. cbn. reflexivity. }
      rewrite E. destruct (nd_of_nil dflt c Hc) as (r & -> & Hr). cbn [bind]. destruct (index_full_same r 0 Hr) as (r' & -> & Hsm & _).
      exists r', []. split; [reflexivity|]. split.
      * unfold py_slice, slice_range. destruct (slice_indices_some (mkSlice (Some a) (Some a) (Some c)) (Z.of_nat (length xs)) Hc) as (a' & b' & c' & Hs').
        rewrite Hs'. cbn [bind]. destruct (bound_slice _ _ _ _ _ Hs' Hc) as (Hc' & Ha' & Hb'). cbn [sl_start sl_stop] in Ha', Hb'.
        unfold zrange, range_len. destruct (Z.ltb_spec 0 c'); [|lia]. replace (Z.to_nat ((b' - a' + c' - 1) / c')) with 0; [reflexivity|].
        rewrite Hb', <- Ha'. symmetry. assert ((a' - a' + c' - 1) / c' = 0)%Z by (apply Z.div_small; lia). lia.
      * split; [cbn; congruence|]. intros i x Hx. destruct i; discriminate Hx.
  - intros Hb Hlt. unfold bin_extract. cbn [sl_start sl_stop sl_step bf_offset bf_item]. replace (0 <=? offset + Z.of_nat item * a)%Z with true by (symmetry; apply Z.leb_le; nia).
    cbn [check bind]. pose proof (short_read offset content xs m a b Hst Hg ltac:(lia) Hb) as Hsr.
    match goal with |- context [Z.eqb ?u ?v] => replace (Z.eqb u v) with false by (symmetry; apply Z.eqb_neq; lia) end. reflexivity.
Qed.

Lemma read_int offset content xs n m i : stored enc item offset content xs -> Forall good xs -> (- Z.of_nat n <= i < Z.of_nat n)%Z ->
  let j := (if (i <? 0)%Z then i + Z.of_nat n else i)%Z in
  let got := proxy_get (bin_extract dflt (mkBin content offset item dec m)) [n] [IxInt i] in
  match nth_error xs (Z.to_nat j) with
  | Some x => exists r, got = Ok r /\ scalar r x
  | None => got = Err OtherException
  end.
Proof.
  intros Hst Hg Hi. cbv zeta. set (j := (if (i <? 0)%Z then i + Z.of_nat n else i)%Z).
  assert (Hj : (0 <= j < Z.of_nat n)%Z) by (unfold j; destruct (Z.ltb_spec i 0); lia).
  assert (Hoff : (0 <= offset)%Z) by (destruct Hst as (h & t & _ & Hh & _); lia).
  assert (E : proxy_get (bin_extract dflt (mkBin content offset item dec m)) [n] [IxInt i] = proxy_get (bin_extract dflt (mkBin content offset item dec m)) [n] [IxInt j]).
  { unfold j. destruct (Z.ltb_spec i 0); [apply proxy_int_wrap; lia|reflexivity]. }
  rewrite E, proxy_int by exact Hj. destruct (nth_error xs (Z.to_nat j)) as [x|] eqn:Hx.
  - assert (Hl : (j < Z.of_nat (length xs))%Z) by (assert (Z.to_nat j < length xs) by (apply nth_error_Some; congruence); lia).
    rewrite <- (proxy_int _ (length xs) j) by lia.
    change (bin_extract dflt (mkBin content offset item dec m)) with (bin_extract dflt (mkBin content offset item dec (length xs))).
    pose proof (bin_int dflt item enc dec good HC offset content xs (length xs) Hst Hg ltac:(lia) j) as H.
    unfold bin_get in H. cbn [bf_size] in H. rewrite firstn_all in H. unfold py_nth, znth_res, nth_res in H.
    destruct (Z.ltb_spec j 0); [lia|]. cbv zeta in H. destruct (Z.ltb_spec j 0); [lia|]. rewrite Hx in H. cbn [of_option] in H.
    destruct (proxy_get _ [length xs] [IxInt j]) as [r|e]; [|destruct H as [H _]; discriminate H].
    destruct H as (y & [= <-] & H). exists r. auto.
  - apply nth_error_None in Hx. unfold bin_extract. cbn [sl_start sl_stop sl_step bf_offset bf_item].
    replace (0 <=? offset + Z.of_nat item * j)%Z with true by (symmetry; apply Z.leb_le; nia).
    cbn [check bind]. pose proof (short_read offset content xs m j (j + 1) Hst Hg ltac:(lia) ltac:(lia)) as Hsr.
    match goal with |- context [Z.eqb ?u ?v] => replace (Z.eqb u v) with false by (symmetry; apply Z.eqb_neq; lia) end. reflexivity.
Qed.
End File.

Lemma open_inv {V} w name path offset size item (dec : bytes -> V) p : at_place (w_cwd w) name path -> file_open w name offset size item dec = Ok p ->
  exists content, w_at w path = Some (File content) /\ (0 < real_size content offset size item)%Z /\
    p = mkFarray path offset item dec (Z.to_nat (real_size content offset size item)).
Proof.
  intros Hp. unfold file_open. rewrite (place_abspath _ _ _ Hp). intros H. apply bind_ok in H as (e & He & H). apply of_option_ok in He.
  cbv zeta in H. apply bind_ok in H as ([] & H1 & H). apply bind_ok in H as ([] & H2 & H). apply check_ok in H1, H2. rewrite He in H2.
  destruct e as [n|content]; [discriminate H2|]. exists content. split; [exact He|].
  unfold proxy_shape_ok in H1. cbn [forallb] in H1. rewrite andb_true_r in H1. apply Z.ltb_lt in H1. injection H as <-. split; [exact H1|reflexivity].
Qed.

Lemma real_stored {V} item (enc : V -> bytes) dec good : codec item enc dec good -> forall offset content xs size, stored enc item offset content xs -> Forall good xs ->
  real_size content offset size item = Z.min size (Z.of_nat (length xs)).
Proof.
  intros HC offset content xs size Hst Hg. pose proof (co_item _ _ _ _ HC) as Hk. unfold real_size. destruct Hst as (h & t & -> & Hh & Ht).
  rewrite !app_length, (concat_length item enc dec good HC) by exact Hg.
  assert (E : ((Z.of_nat (length h + (item * length xs + length t)) - offset) / Z.of_nat item = Z.of_nat (length xs))%Z).
  { symmetry. apply Z.div_unique with (r := Z.of_nat (length t)); [left; lia|nia]. }
  rewrite E. destruct (Z.ltb_spec (Z.of_nat (length xs)) size); lia.
Qed.

(** the first and last positions of a slice of an array of [n] elements *)
Lemma bounds_slice s n a b c : (match sl_start s with Some a => bound (Z.of_nat n) a | None => 0 end = a)%Z ->
  (match sl_stop s with Some b => bound (Z.of_nat n) b | None => Z.of_nat n end = b)%Z -> match sl_step s with Some c => c | None => 1%Z end = c -> (0 < c)%Z ->
  slice_indices s (Z.of_nat n) = Ok (a, b, c).
Proof.
  intros Ha Hb Hc Hp. destruct (slice_indices_some s (Z.of_nat n)) as (a' & b' & c' & Hs); [destruct (sl_step s); subst; lia || exact I|].
  pose proof (slice_indices_step _ _ _ _ _ Hs) as Hst. assert (c' = c) by (destruct (sl_step s); congruence). subst c'.
  destruct (bound_slice _ _ _ _ _ Hs ltac:(destruct (sl_step s); subst; lia || exact I)) as (_ & Ha' & Hb'). rewrite Hs. congruence.
Qed.

Lemma file_slices {V} (dflt : V) item enc dec good : codec item enc dec good -> forall w name path offset size p, at_place (w_cwd w) name path -> file_open w name offset size item dec = Ok p ->
  forall w' content xs, w_at w' path = Some (File content) -> stored enc item offset content xs -> Forall good xs ->
  forall s a b c,
  (match sl_start s with Some a => bound (Z.of_nat (fa_size p)) a | None => 0 end = a)%Z ->
  (match sl_stop s with Some b => bound (Z.of_nat (fa_size p)) b | None => Z.of_nat (fa_size p) end = b)%Z ->
  match sl_step s with Some c => c | None => 1%Z end = c -> (0 < c)%Z -> (a <= b)%Z ->
  ((b <= Z.of_nat (length xs))%Z \/ a = b -> exists r l, file_get dflt w' p [IxSlice s] = Ok r /\ py_slice xs (mkSlice (Some a) (Some b) (Some c)) = Ok l /\ lists r l) /\
  ((Z.of_nat (length xs) < b)%Z -> (a < b)%Z -> file_get dflt w' p [IxSlice s] = Err OtherException).
Proof.
  intros HC w name path offset size p Hp Ho w' content xs Hw Hst Hg s a b c Ha Hb Hc Hpos Hab.
  destruct (open_inv _ _ _ _ _ _ _ _ Hp Ho) as (content0 & _ & _ & ->). cbn [fa_size] in *. set (n := Z.to_nat _) in *.
  unfold file_get, file_extract. cbn [fa_path fa_size fa_offset fa_item fa_dec]. rewrite Hw.
  exact (read_slice dflt item enc dec good HC offset content xs n n s a b c Hst Hg (bounds_slice _ _ _ _ _ Ha Hb Hc Hpos) Hpos Hab).
Qed.

Lemma file_integers {V} (dflt : V) item enc dec good : codec item enc dec good -> forall w name path offset size p, at_place (w_cwd w) name path -> file_open w name offset size item dec = Ok p ->
  forall w' content xs, w_at w' path = Some (File content) -> stored enc item offset content xs -> Forall good xs ->
  forall i,
  ((- Z.of_nat (fa_size p) <= i < Z.of_nat (fa_size p))%Z ->
   match nth_error xs (Z.to_nat (if (i <? 0)%Z then i + Z.of_nat (fa_size p) else i)%Z) with
   | Some x => exists r, file_get dflt w' p [IxInt i] = Ok r /\ scalar r x
   | None => file_get dflt w' p [IxInt i] = Err OtherException
   end).
Proof.
  intros HC w name path offset size p Hp Ho w' content xs Hw Hst Hg i.
  destruct (open_inv _ _ _ _ _ _ _ _ Hp Ho) as (content0 & _ & _ & ->). cbn [fa_size] in *. set (n := Z.to_nat _) in *. intros Hi.
  unfold file_get, file_extract. cbn [fa_path fa_size fa_offset fa_item fa_dec]. rewrite Hw.
  exact (read_int dflt item enc dec good HC offset content xs n n i Hst Hg Hi).
Qed.

Lemma file_outside {V} (dflt : V) w p i : (i < - Z.of_nat (fa_size p) \/ Z.of_nat (fa_size p) <= i)%Z -> file_get dflt w p [IxInt i] = Err IndexError.
Proof. intros Hi. apply proxy_int_out, Hi. Qed.

Lemma file_gone {V} (dflt : V) w name path offset size item dec p : at_place (w_cwd w) name path -> file_open w name offset size item dec = Ok p ->
  forall w', match w_at w' path with Some (File _) => False | _ => True end ->
  (forall i, (- Z.of_nat (fa_size p) <= i < Z.of_nat (fa_size p))%Z -> file_get dflt w' p [IxInt i] = Err OtherException) /\
  (forall s, match sl_step s with Some c => (0 < c)%Z | None => True end -> file_get dflt w' p [IxSlice s] = Err OtherException).
Proof.
  intros Hp Ho w' Hw. destruct (open_inv _ _ _ _ _ _ _ _ Hp Ho) as (content0 & _ & _ & ->). cbn [fa_size] in *. set (n := Z.to_nat _) in *.
  assert (E : forall index, file_extract dflt w' (mkFarray path offset item dec n) index = Err OtherException).
  { intros index. unfold file_extract. cbn [fa_path]. destruct (w_at w' path) as [[]|]; tauto. }
  split.
  - intros i Hi. unfold file_get. cbn [fa_size]. destruct (Z.ltb_spec i 0).
    + rewrite proxy_int_wrap, proxy_int by lia. rewrite E. reflexivity.
    + rewrite proxy_int by lia. rewrite E. reflexivity.
  - intros s Hs. destruct (slice_indices_some s (Z.of_nat n) Hs) as (a & b & c & Hi). pose proof (slice_indices_step _ _ _ _ _ Hi) as Hst.
    assert (Hc : (0 < c)%Z) by (destruct (sl_step s); subst; lia). unfold file_get. cbn [fa_size]. rewrite (proxy_slice _ _ _ _ _ _ Hi Hc), E. reflexivity.
Qed.

Lemma file_place {V} (dflt : V) w name path offset size item dec p : at_place (w_cwd w) name path -> file_open w name offset size item dec = Ok p ->
  forall w1 w2 index, w_at w1 path = w_at w2 path -> file_get dflt w1 p index = file_get dflt w2 p index.
Proof.
  intros Hp Ho w1 w2 index Hw. destruct (open_inv _ _ _ _ _ _ _ _ Hp Ho) as (content0 & _ & _ & ->). unfold file_get, file_extract. cbn [fa_path]. rewrite Hw. reflexivity.
Qed.

Lemma file_opens {V} item (enc : V -> bytes) dec good : codec item enc dec good -> forall w name path offset size content xs, at_place (w_cwd w) name path ->
  w_at w path = Some (File content) -> stored enc item offset content xs -> Forall good xs ->
  file_open w name offset size item dec =
  if (0 <? Z.min size (Z.of_nat (length xs)))%Z then Ok (mkFarray path offset item dec (Z.to_nat (Z.min size (Z.of_nat (length xs))))) else Err AssertionError.
Proof.
  intros HC w name path offset size content xs Hp Hw Hst Hg. unfold file_open. rewrite (place_abspath _ _ _ Hp), Hw. cbn [of_option bind st_size]. cbv zeta.
  pose proof (real_stored item enc dec good HC offset content xs size Hst Hg) as E. unfold real_size in E. cbv zeta in E. rewrite E.
  unfold proxy_shape_ok. cbn [forallb]. rewrite andb_true_r. destruct (0 <? _)%Z; reflexivity.
Qed.

Lemma file_not_open {V} w name path offset size item (dec : bytes -> V) : at_place (w_cwd w) name path ->
  (w_at w path = None -> file_open w name offset size item dec = Err OtherException) /\
  (forall n, w_at w path = Some (Dir n) -> file_open w name offset size item dec = Err AssertionError \/ file_open w name offset size item dec = Err ValueError).
Proof.
  intros Hp. unfold file_open. rewrite (place_abspath _ _ _ Hp). split; intros.
  - rewrite H. reflexivity.
  - rewrite H. cbn [of_option bind]. cbv zeta. destruct (proxy_shape_ok _); cbn [check bind]; auto.
Qed.

Lemma file_whole {V D} (dflt : V) item enc dec good : codec item enc dec good -> forall w name path offset size p, at_place (w_cwd w) name path -> file_open w name offset size item dec = Ok p ->
  forall w' content xs, w_at w' path = Some (File content) -> stored enc item offset content xs -> Forall good xs ->
  forall (deqb : D -> D -> bool) astype own dtype, (forall d e, deqb d e = true <-> d = e) ->
  (fa_size p <= length xs -> exists r, file_array dflt deqb astype own w' p dtype = Ok r /\
     lists r (match dtype with Some d => if deqb own d then firstn (fa_size p) xs else map (astype d) (firstn (fa_size p) xs) | None => firstn (fa_size p) xs end)) /\
  (length xs < fa_size p -> file_array dflt deqb astype own w' p dtype = Err OtherException).
Proof.
  intros HC w name path offset size p Hp Ho w' content xs Hw Hst Hg deqb astype own dtype Hd.
  destruct (file_slices dflt item enc dec good HC w name path offset size p Hp Ho w' content xs Hw Hst Hg (mkSlice None None None) 0 (Z.of_nat (fa_size p)) 1 eq_refl eq_refl eq_refl ltac:(lia) ltac:(lia)) as [H1 H2].
  unfold file_array. change ix_full with (IxSlice (mkSlice None None None)). split.
  - intros Hl. destruct (H1 ltac:(lia)) as (r & l & -> & Hl1 & Hr). cbn [bind].
    assert (El : l = firstn (fa_size p) xs).
    { unfold py_slice, slice_range in Hl1. rewrite explicit_slice in Hl1 by lia. cbn [bind] in Hl1.
      unfold zrange, range_len in Hl1. change (0 <? 1)%Z with true in Hl1. cbv iota in Hl1.
      replace (Z.to_nat ((Z.of_nat (fa_size p) - 0 + 1 - 1) / 1)) with (fa_size p) in Hl1 by (rewrite Z.div_1_r; lia).
      apply mapM_Forall2 in Hl1. apply nth_error_ext. intros k.
      pose proof (Forall2_len _ _ _ Hl1) as HL. rewrite map_length, seq_length in HL.
      destruct (nth_error l k) as [x|] eqn:Hx.
      - destruct (Forall2_nth_error_r _ _ _ _ _ Hl1 Hx) as (j & Hj & Hjx).
        assert (Hk : k < fa_size p) by (rewrite HL; apply nth_error_Some; congruence).
        rewrite nth_error_map, (nth_error_nth' _ 0) in Hj by (rewrite seq_length; exact Hk). rewrite seq_nth in Hj by exact Hk. cbn [option_map] in Hj. assert (j = Z.of_nat k) by (injection Hj as <-; lia). subst j. clear Hj.
        unfold znth_res, nth_res in Hjx. destruct (Z.ltb_spec (Z.of_nat k) 0); [lia|]. apply of_option_ok in Hjx.
        rewrite Nat2Z.id in Hjx. symmetry. rewrite <- Hjx. rewrite <- (firstn_skipn (fa_size p) xs) at 2.
        symmetry. apply nth_error_app1. rewrite firstn_length. lia.
      - apply nth_error_None in Hx. symmetry. apply nth_error_None. rewrite firstn_length. lia. }
    subst l. eexists. split; [reflexivity|]. destruct dtype as [d|]; [|exact Hr]. destruct (deqb own d); cbn [negb]; [exact Hr|].
    destruct Hr as [Hs Hv]. split; cbn [nd_shape nd_get]; [rewrite map_length; exact Hs|]. intros i x Hx. rewrite nth_error_map in Hx.
    destruct (nth_error (firstn _ xs) i) as [y|] eqn:Hy; [|discriminate]. injection Hx as <-. rewrite (Hv _ _ Hy). reflexivity.
  - intros Hl. rewrite H2 by (destruct (open_inv _ _ _ _ _ _ _ _ Hp Ho) as (c0 & _ & Hr & ->); cbn [fa_size] in *; lia). reflexivity.
Qed.
