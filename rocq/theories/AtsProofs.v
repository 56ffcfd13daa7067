(** Proofs about ATS files. *)
From Coq Require Import QArith Qcanon.
From Verif Require Import Base BaseLemmas SliceLemmas Arith SyncModel ProxyModel SpecProxy ProxyProofs BinProofs AtsModel SpecAts SpecSet QcLemmas OrdLaws.
Open Scope nat_scope.

(** ** Numbers *)
Lemma le_bytes_length n : forall z, length (le_bytes n z) = n.
Proof. induction n; intros z; simpl; [reflexivity|]. f_equal. apply IHn. Qed.

Lemma pow8 n : (2 ^ (8 * Z.of_nat (S n)) = 256 * 2 ^ (8 * Z.of_nat n))%Z.
Proof. replace (8 * Z.of_nat (S n))%Z with (8 + 8 * Z.of_nat n)%Z by lia. rewrite Z.pow_add_r by lia. reflexivity. Qed.

Lemma le_nat_bytes : forall n z, le_nat (le_bytes n z) = (z mod 2 ^ (8 * Z.of_nat n))%Z.
Proof.
  induction n as [|n IH]; intros z.
  - simpl. symmetry. apply Z.mod_1_r.
  - cbn [le_bytes le_nat]. rewrite IH, pow8.
    assert (Hm : (0 <= z mod 256 < 256)%Z) by (apply Z.mod_pos_bound; lia).
    rewrite N_ascii_embedding by lia. rewrite Z2N.id by lia.
    rewrite Z.rem_mul_r by lia. reflexivity.
Qed.

Lemma le_nat_unsigned n z : (0 <= z < 2 ^ (8 * Z.of_nat n))%Z -> le_nat (le_bytes n z) = z.
Proof. intros H. rewrite le_nat_bytes. apply Z.mod_small. exact H. Qed.

Lemma le_signed_bytes n z : 0 < n -> (- 2 ^ (8 * Z.of_nat n - 1) <= z < 2 ^ (8 * Z.of_nat n - 1))%Z -> le_signed (le_bytes n z) = z.
Proof.
  intros Hn Hz. unfold le_signed. cbv zeta. rewrite le_nat_bytes, le_bytes_length.
  assert (E : (2 ^ (8 * Z.of_nat n) = 2 * 2 ^ (8 * Z.of_nat n - 1))%Z).
  { rewrite <- Z.pow_succ_r by lia. f_equal. lia. }
  assert (Hp : (0 < 2 ^ (8 * Z.of_nat n - 1))%Z) by (apply Z.pow_pos_nonneg; lia).
  rewrite E. destruct (Z.ltb_spec z 0).
  - replace (z mod (2 * 2 ^ (8 * Z.of_nat n - 1)))%Z with (z + 2 * 2 ^ (8 * Z.of_nat n - 1))%Z.
    2: { symmetry. rewrite <- (Z_mod_plus_full z 1). rewrite Z.mul_1_l. apply Z.mod_small. lia. }
    destruct (Z.ltb_spec (z + 2 * 2 ^ (8 * Z.of_nat n - 1)) (2 ^ (8 * Z.of_nat n - 1))); lia.
  - rewrite Z.mod_small by lia. destruct (Z.ltb_spec z (2 ^ (8 * Z.of_nat n - 1))); lia.
Qed.

(** and back *)
Lemma le_nat_range : forall b, (0 <= le_nat b < 2 ^ (8 * Z.of_nat (length b)))%Z.
Proof.
  induction b as [|c b IH]; [simpl; lia|]. cbn [le_nat length]. rewrite pow8.
  assert (Hc : (0 <= Z.of_N (N_of_ascii c) < 256)%Z) by (pose proof (N_ascii_bounded c); lia). lia.
Qed.
Lemma le_bytes_nat : forall b, le_bytes (length b) (le_nat b) = b.
Proof.
  induction b as [|c b IH]; [reflexivity|]. cbn [le_nat length le_bytes].
  assert (Hc : (0 <= Z.of_N (N_of_ascii c) < 256)%Z) by (pose proof (N_ascii_bounded c); lia).
  rewrite (Z.mul_comm 256), Z.mod_add, Z.mod_small, Z.div_add, Z.div_small, Z.add_0_l, IH, N2Z.id, ascii_N_embedding by lia. reflexivity.
Qed.
Lemma le_bytes_mod : forall n z w, (z mod 2 ^ (8 * Z.of_nat n) = w mod 2 ^ (8 * Z.of_nat n))%Z -> le_bytes n z = le_bytes n w.
Proof.
  intros n z w H. rewrite <- !le_nat_bytes in H.
  pose proof (le_bytes_nat (le_bytes n z)) as E1. pose proof (le_bytes_nat (le_bytes n w)) as E2.
  rewrite le_bytes_length in E1, E2. congruence.
Qed.
Lemma le_bytes_signed b : le_bytes (length b) (le_signed b) = b.
Proof.
  transitivity (le_bytes (length b) (le_nat b)); [|apply le_bytes_nat]. apply le_bytes_mod. unfold le_signed. cbv zeta.
  destruct (_ <? _)%Z; [reflexivity|]. rewrite <- (Z_mod_plus_full (le_nat b) (-1)). f_equal.
Qed.
Lemma le_signed_range b : b <> [] -> (- 2 ^ (8 * Z.of_nat (length b) - 1) <= le_signed b < 2 ^ (8 * Z.of_nat (length b) - 1))%Z.
Proof.
  intros Hb. pose proof (le_nat_range b) as H. unfold le_signed. cbv zeta.
  assert (E : (2 ^ (8 * Z.of_nat (length b)) = 2 * 2 ^ (8 * Z.of_nat (length b) - 1))%Z).
  { rewrite <- Z.pow_succ_r; [f_equal; lia|]. destruct b; [congruence|simpl length; lia]. }
  destruct (Z.ltb_spec (le_nat b) (2 ^ (8 * Z.of_nat (length b) - 1))); lia.
Qed.

Lemma int32_codec : codec 4 (le_bytes 4) le_signed int32.
Proof.
  split; [lia| |].
  - intros x _. apply le_bytes_length.
  - intros x Hx. apply le_signed_bytes; [lia|]. exact Hx.
Qed.

(** ** Fields *)
Lemma fencode_length c v : fits c v -> length (fencode c v) = fsize c.
Proof. destruct c as [n []|n|n], v; simpl; intros H; try contradiction; try apply le_bytes_length; exact H. Qed.

Lemma fdecode_fits c b : length b = fsize c -> 0 < fsize c -> fits c (fdecode c b) /\ fencode c (fdecode c b) = b.
Proof.
  intros Hl Hn. assert (Hb : b <> []) by (intros ->; simpl in Hl; lia).
  destruct c as [n []|n|n]; cbn [fsize] in *; subst n; simpl.
  - split; [apply le_signed_range; exact Hb|apply le_bytes_signed].
  - split; [apply le_nat_range|apply le_bytes_nat].
  - split; [apply le_nat_range|apply le_bytes_nat].
  - auto.
Qed.

Lemma fdecode_encode c v : 0 < fsize c -> fits c v -> fdecode c (fencode c v) = v.
Proof.
  destruct c as [n []|n|n], v; simpl; intros Hn H; try contradiction; f_equal.
  - apply le_signed_bytes; assumption.
  - apply le_nat_unsigned; assumption.
  - apply le_nat_unsigned; assumption.
Qed.

(** without padding the fields are where [packed] puts them *)
Definition unpadded (fmt : list fcode) : Prop :=
  forall i c p, nth_error fmt i = Some c -> nth_error (fst (positions fmt 0)) i = Some p ->
  p = list_sum (map fsize (firstn i fmt)).

Fixpoint tight (fmt : list fcode) (pos : nat) : bool :=
  match fmt with
  | [] => true
  | c :: fmt => (align_up pos (falign c) =? pos) && (0 <? fsize c) && tight fmt (pos + fsize c)
  end.

Lemma positions_tight : forall fmt pos, tight fmt pos = true ->
  snd (positions fmt pos) = pos + list_sum (map fsize fmt) /\ length (fst (positions fmt pos)) = length fmt /\
  Forall (fun c => 0 < fsize c) fmt.
Proof.
  induction fmt as [|c fmt IH]; intros pos H; simpl in H |- *.
  - split; [lia|]. auto.
  - apply andb_true_iff in H as (H & H3). apply andb_true_iff in H as (H1 & H2). apply Nat.eqb_eq in H1. apply Nat.ltb_lt in H2. rewrite H1.
    destruct (IH _ H3) as (E1 & E2 & E3). destruct (positions fmt (pos + fsize c)) as [ps total]. simpl in *. split; [lia|]. auto.
Qed.

Lemma unpack_tight : forall fmt vs pre rest, tight fmt (length pre) = true -> Forall2 fits fmt vs ->
  map (fun cp => fdecode (fst cp) (firstn (fsize (fst cp)) (skipn (snd cp) (pre ++ packed fmt vs ++ rest))))
      (combine fmt (fst (positions fmt (length pre)))) = vs.
Proof.
  induction fmt as [|c fmt IH]; intros vs pre rest Ht Hf.
  - inversion Hf; subst. reflexivity.
  - inversion Hf as [|? v ? vs' Hc Hr]; subst. simpl in Ht. apply andb_true_iff in Ht as (H & H3).
    apply andb_true_iff in H as (H1 & H2). apply Nat.eqb_eq in H1. apply Nat.ltb_lt in H2.
    cbn [positions]. rewrite H1. 
    assert (El : length pre + fsize c = length (pre ++ fencode c v)) by (rewrite app_length, fencode_length by exact Hc; reflexivity).
    rewrite El in H3 |- *. specialize (IH vs' (pre ++ fencode c v) rest H3 Hr).
    destruct (positions fmt (length (pre ++ fencode c v))) as [ps total]. cbn [fst snd combine map] in IH |- *. f_equal.
    + rewrite skipn_app, Nat.sub_diag, skipn_all. simpl. rewrite <- app_assoc, <- (fencode_length c v Hc).
      rewrite firstn_app, Nat.sub_diag, firstn_all. simpl. rewrite app_nil_r. apply fdecode_encode; assumption.
    + simpl packed. rewrite <- !app_assoc in IH. rewrite <- !app_assoc. exact IH.
Qed.

Lemma codes_eq : map snd byte_format = codes.
Proof. vm_compute. reflexivity. Qed.
Lemma names_eq : map fst byte_format = names.
Proof. vm_compute. reflexivity. Qed.
(** the positions of the table are those of fields without padding *)
Fixpoint offsets_ok (l : list (nat * string * fcode)) (pos : nat) : bool :=
  match l with [] => true | (o, _, c) :: l => (o =? pos) && offsets_ok l (pos + fsize c) end.
Lemma layout_offsets : offsets_ok layout 0 = true.
Proof. vm_compute. reflexivity. Qed.
Lemma codes_tight : tight codes 0 = true.
Proof. vm_compute. reflexivity. Qed.
Lemma codes_total : snd (positions codes 0) = 1024.
Proof. vm_compute. reflexivity. Qed.

Lemma names_nodup : NoDup names.
Proof.
  assert (E : dedup String.eqb names = names) by (vm_compute; reflexivity).
  rewrite <- E. apply NoDup_dedup. apply String.eqb_eq.
Qed.
Lemma names_codes : length names = length codes.
Proof. vm_compute. reflexivity. Qed.
Lemma codes_first : exists c, codes = Fint 2 true :: c.
Proof. eexists. vm_compute. reflexivity. Qed.
Lemma names_first : exists c, names = "header_length"%string :: c.
Proof. eexists. vm_compute. reflexivity. Qed.
Lemma codes_sum : list_sum (map fsize codes) = 1024.
Proof. vm_compute. reflexivity. Qed.

Lemma tight_positions : forall fmt pos i c p, tight fmt pos = true -> nth_error fmt i = Some c -> nth_error (fst (positions fmt pos)) i = Some p ->
  p = pos + list_sum (map fsize (firstn i fmt)).
Proof.
  induction fmt as [|c fmt IH]; intros pos i c' p H H1 H2; [destruct i; discriminate|].
  simpl in H. apply andb_true_iff in H as (H & H3). apply andb_true_iff in H as (Ha & _). apply Nat.eqb_eq in Ha.
  cbn [positions] in H2. rewrite Ha in H2. specialize (IH (pos + fsize c)).
  destruct (positions fmt (pos + fsize c)) as [ps total]. cbn [fst] in IH, H2. destruct i as [|i]; simpl in H1, H2 |- *.
  - injection H2 as <-. lia.
  - rewrite (IH i c' p H3 H1 H2). lia.
Qed.
#[local] Opaque codes names byte_format layout.

Lemma packed_length : forall fmt vs, Forall2 fits fmt vs -> length (packed fmt vs) = list_sum (map fsize fmt).
Proof. induction 1 as [|c v fmt vs H1 H2 IH]; [reflexivity|]. simpl. rewrite app_length, IH, fencode_length by exact H1. reflexivity. Qed.

Lemma header_length_1024 vs : Forall2 fits codes vs -> length (packed codes vs) = 1024.
Proof. intros H. rewrite (packed_length _ _ H). destruct (positions_tight codes 0 codes_tight) as (E & _). rewrite codes_total in E. lia. Qed.

Lemma unpack_header vs rest : Forall2 fits codes vs -> unpack_from codes (packed codes vs ++ rest) = Ok vs.
Proof.
  intros H. unfold unpack_from. pose proof (unpack_tight codes vs [] rest codes_tight H) as E. simpl in E.
  pose proof codes_total as T. destruct (positions codes 0) as [ps total]. simpl in T, E. rewrite T.
  rewrite app_length, (header_length_1024 _ H). rewrite (proj2 (Nat.leb_le _ _)) by lia. cbn [check bind]. rewrite E. reflexivity.
Qed.

Lemma dset_new {B} k (v : B) : forall d, ~ In k (map fst d) -> dset k v d = d ++ [(k, v)].
Proof.
  induction d as [|[k' v'] d IH]; intros H; [reflexivity|]. simpl in H |- *.
  destruct (String.eqb_spec k k'); [subst; exfalso; auto|]. rewrite IH; [reflexivity|]. auto.
Qed.

Lemma fold_dset {B} : forall (l d : dict B), NoDup (map fst (d ++ l)) ->
  fold_left (fun d p => dset (fst p) (snd p) d) l d = d ++ l.
Proof.
  induction l as [|[k v] l IH]; intros d H; simpl; [rewrite app_nil_r; reflexivity|].
  rewrite dset_new. 2: { rewrite map_app in H. simpl in H. apply NoDup_remove_2 in H. intros Hin. apply H. apply in_or_app. left. exact Hin. }
  replace (d ++ (k, v) :: l) with ((d ++ [(k, v)]) ++ l) by (rewrite <- app_assoc; reflexivity). apply IH.
  rewrite <- app_assoc. exact H.
Qed.

Lemma dget_In {B} : forall (d : dict B) k v, NoDup (map fst d) -> In (k, v) d -> dget k d = Some v.
Proof.
  induction d as [|[k' v'] d IH]; intros k v Hn Hin; [destruct Hin|]. simpl in Hn |- *. inversion Hn as [|? ? H1 H2]; subst.
  destruct Hin as [H|H].
  - injection H as -> ->. rewrite String.eqb_refl. reflexivity.
  - destruct (String.eqb_spec k k'); [subst; exfalso; apply H1; apply (in_map fst) in H; exact H|]. apply IH; assumption.
Qed.

Lemma dget_In_inv {B} : forall (d : dict B) k v, dget k d = Some v -> In (k, v) d.
Proof.
  induction d as [|[k' v'] d IH]; intros k v H; [discriminate|]. simpl in H. destruct (String.eqb_spec k k').
  - injection H as ->. subst. left. reflexivity.
  - right. apply IH. exact H.
Qed.

Lemma combine_names_nodup (vs : list fval) : length vs = length names -> NoDup (map fst (combine names vs)).
Proof. intros H. rewrite map_fst_combine by congruence. apply names_nodup. Qed.

Lemma first_field vs : Forall2 fits codes vs ->
  exists z vs', vs = VI z :: vs' /\ (- 2 ^ 15 <= z < 2 ^ 15)%Z /\ forall rest, firstn 2 (packed codes vs ++ rest) = le_bytes 2 z.
Proof.
  intros H. destruct codes_first as (cs & Ec). rewrite Ec in *. inversion H as [|? v ? vs' Hc Hr]; subst.
  destruct v as [z| | | |]; simpl in Hc; try contradiction. exists z, vs'. split; [reflexivity|]. split; [exact Hc|]. intros rest. reflexivity.
Qed.

(** the bytes of a field *)
Lemma field_at : forall l vs pos, offsets_ok l pos = true -> Forall2 fits (map snd l) vs ->
  forall o name c, In (o, name, c) l -> exists v, In (name, v) (combine (map (fun f => snd (fst f)) l) vs) /\ fits c v /\
  forall rest, firstn (fsize c) (skipn (o - pos) (packed (map snd l) vs ++ rest)) = fencode c v /\ pos <= o.
Proof.
  induction l as [|[[o' n'] c'] l IH]; intros vs pos Ho Hf o name c Hin; [destruct Hin|].
  cbn [map snd fst] in *. inversion Hf as [|? v ? vs' Hc Hr]; subst. simpl in Ho. apply andb_true_iff in Ho as (Ho & Hr').
  apply Nat.eqb_eq in Ho. subst o'. destruct Hin as [E|Hin].
  - injection E as -> -> ->. exists v. split; [left; reflexivity|]. split; [exact Hc|]. intros rest. split; [|lia]. rewrite Nat.sub_diag. simpl.
    rewrite <- app_assoc, <- (fencode_length _ _ Hc), firstn_app, Nat.sub_diag, firstn_all. simpl. apply app_nil_r.
  - destruct (IH vs' _ Hr' Hr o name c Hin) as (w & H1 & H2 & H3). exists w. split; [right; exact H1|]. split; [exact H2|].
    intros rest. destruct (H3 rest) as (H4 & H5). split; [|lia]. rewrite <- H4. f_equal. simpl packed. rewrite <- app_assoc, skipn_app.
    rewrite skipn_all2 by (rewrite (fencode_length _ _ Hc); lia). simpl. f_equal. rewrite (fencode_length _ _ Hc). lia.
Qed.
Lemma header_field vs : Forall2 fits codes vs -> forall o name c, In (o, name, c) layout ->
  exists v, In (name, v) (combine names vs) /\ fits c v /\
  forall rest, firstn (fsize c) (skipn o (packed codes vs ++ rest)) = fencode c v.
Proof.
  intros H o name c Hin. destruct (field_at layout vs 0 layout_offsets H o name c Hin) as (v & H1 & H2 & H3).
  exists v. split; [exact H1|]. split; [exact H2|]. intros rest. destruct (H3 rest) as (H4 & _). rewrite Nat.sub_0_r in H4. exact H4.
Qed.

(** the conversions *)
Definition units (d : dict fval) : dict fval := map (fun p => (fst p, in_units (fst p) (snd p))) d.
Definition change_unit (name : string) (unit : Z -> fval) (p : string * fval) : string * fval :=
  if String.eqb (fst p) name then (fst p, match snd p with VI z => unit z | v => v end) else p.
Lemma dset_map name (v : fval) : forall d, NoDup (map fst d) -> In name (map fst d) ->
  dset name v d = map (fun p => if String.eqb (fst p) name then (fst p, v) else p) d.
Proof.
  induction d as [|[k w] d IH]; intros Hn Hin; [destruct Hin|]. cbn [map fst] in *. inversion Hn as [|? ? H1 H2]; subst. cbn [dset].
  destruct (String.eqb_spec name k) as [->|Hk].
  - rewrite String.eqb_refl. f_equal. rewrite <- (map_id d) at 1. apply map_ext_in. intros [k' w'] Hp. cbn [fst].
    destruct (String.eqb_spec k' k) as [->|]; [|reflexivity]. exfalso. apply H1. apply (in_map fst) in Hp. exact Hp.
  - destruct (String.eqb_spec k name); [congruence|]. f_equal. apply IH; [exact H2|]. destruct Hin; [congruence|assumption].
Qed.
Lemma rescale_ok name unit d z : NoDup (map fst d) -> In (name, VI z) d -> rescale name unit d = Ok (map (change_unit name unit) d).
Proof.
  intros Hn Hin. unfold rescale. rewrite (dget_In _ _ _ Hn Hin). f_equal. rewrite dset_map; [|exact Hn|apply (in_map fst) in Hin; exact Hin].
  apply map_ext_in. intros [k v] Hp. unfold change_unit. cbn [fst snd]. destruct (String.eqb_spec k name) as [->|]; [|reflexivity].
  pose proof (dget_In _ _ _ Hn Hp) as E1. pose proof (dget_In _ _ _ Hn Hin) as E2. rewrite E1 in E2. injection E2 as ->. reflexivity.
Qed.
Lemma keys_change name unit d : map fst (map (change_unit name unit) d) = map fst d.
Proof. rewrite map_map. apply map_ext. intros [k v]. unfold change_unit. cbn [fst snd]. destruct (String.eqb k name); reflexivity. Qed.
Lemma In_change name unit d k v : In (k, v) d -> k <> name -> In (k, v) (map (change_unit name unit) d).
Proof.
  intros H Hk. apply in_map_iff. exists (k, v). split; [|exact H]. unfold change_unit. cbn [fst]. destruct (String.eqb_spec k name); [contradiction|reflexivity].
Qed.
Lemma in_layout n x : nth_error layout n = Some x -> In x layout.
Proof. apply nth_error_In. Qed.
Lemma rescaled vs : Forall2 fits codes vs -> length vs = length names ->
  (let header := combine names vs in
   header <- rescale "ADU_Lat" VDeg header ;; header <- rescale "ADU_Long" VDeg header ;; rescale "ADU_Elev" VMetre header)
  = Ok (units (combine names vs)).
Proof.
  intros H Hl. cbv zeta. set (d := combine names vs). assert (Hn : NoDup (map fst d)) by (apply combine_names_nodup; exact Hl).
  assert (G : forall o name, In (o, name, Fint 4 true) layout -> exists z, In (name, VI z) d).
  { intros o name Hi. destruct (header_field vs H o name _ Hi) as (v & H1 & H2 & _). destruct v as [z| | | |]; try contradiction. eauto. }
  destruct (G 96 "ADU_Lat"%string (in_layout 27 _ ltac:(vm_compute; reflexivity))) as (z1 & H1).
  destruct (G 100 "ADU_Long"%string (in_layout 28 _ ltac:(vm_compute; reflexivity))) as (z2 & H2).
  destruct (G 104 "ADU_Elev"%string (in_layout 29 _ ltac:(vm_compute; reflexivity))) as (z3 & H3).
  rewrite (rescale_ok _ _ _ _ Hn H1). cbn [bind].
  rewrite (rescale_ok _ _ _ z2). 2: { rewrite keys_change. exact Hn. } 2: { apply In_change; [exact H2|discriminate]. }
  cbn [bind]. rewrite (rescale_ok _ _ _ z3). 2: { rewrite !keys_change. exact Hn. } 2: { apply In_change; [apply In_change; [exact H3|discriminate]|discriminate]. }
  rewrite !map_map. unfold units. apply (f_equal Ok). apply map_ext. intros [k v]. unfold change_unit, in_units. cbn [fst snd].
  destruct (String.eqb_spec k "ADU_Lat") as [->|N1].
  { destruct v; reflexivity. }
  cbn [fst snd]. destruct (String.eqb_spec k "ADU_Long") as [->|N2].
  { destruct v; reflexivity. }
  cbn [fst snd orb]. destruct (String.eqb_spec k "ADU_Elev") as [->|N3]; destruct v; reflexivity.
Qed.

Lemma header_field_ok vs name v : Forall2 fits codes vs -> In (name, v) (combine names vs) -> dget name (combine names vs) = Some v.
Proof.
  intros H Hin. apply dget_In; [|exact Hin]. apply combine_names_nodup.
  rewrite names_codes. symmetry. exact (Forall2_len _ _ _ H).
Qed.
Lemma units_ok vs name v : Forall2 fits codes vs -> In (name, v) (combine names vs) -> dget name (units (combine names vs)) = Some (in_units name v).
Proof.
  intros H Hin. apply dget_In.
  - unfold units. rewrite map_map. cbn [fst]. apply combine_names_nodup. rewrite names_codes. symmetry. exact (Forall2_len _ _ _ H).
  - unfold units. apply in_map_iff. exists (name, v). auto.
Qed.

(** reading the header, for any bytes in the first two positions of the right length *)
Lemma read_header vs rest : Forall2 fits codes vs ->
  forall z vs', vs = VI z :: vs' -> (1024 <= z mod 2 ^ 16)%Z ->
  read_ats_header (packed codes vs ++ rest) = Ok (units (combine names vs)).
Proof.
  intros H z vs' E Hz. pose proof (header_length_1024 _ H) as HL.
  destruct (first_field _ H) as (z' & vs2 & E2 & Hr & F). rewrite E in E2. injection E2 as <- <-.
  unfold read_ats_header. rewrite app_length, HL. rewrite (proj2 (Nat.leb_le _ _)) by lia. cbn [check bind]. cbv zeta.
  rewrite F, le_nat_bytes. change (8 * Z.of_nat 2)%Z with 16%Z.
  rewrite firstn_app, HL. rewrite firstn_all2 by lia.
  rewrite codes_eq, names_eq, (unpack_header _ _ H). cbn [bind].
  assert (Hn : length vs = length names) by (rewrite names_codes; symmetry; exact (Forall2_len _ _ _ H)).
  rewrite fold_dset by (apply combine_names_nodup; exact Hn). simpl app. apply rescaled; assumption.
Qed.

(** no header *)
Lemma no_header file : (length file < 2 -> read_ats_header file = Err OtherException) /\
  (2 <= length file -> length file < 1024 \/ (le_nat (firstn 2 file) < 1024)%Z -> read_ats_header file = Err StructError).
Proof.
  unfold read_ats_header. split; [intros H; rewrite (proj2 (Nat.leb_gt _ _)) by lia; reflexivity|]. intros H1 H2.
  rewrite (proj2 (Nat.leb_le _ _)) by exact H1. cbn [check bind]. cbv zeta.
  unfold unpack_from. rewrite codes_eq. pose proof codes_total as T. destruct (positions codes 0) as [ps total]. simpl in T. subst.
  rewrite (proj2 (Nat.leb_gt _ _)); [reflexivity|]. rewrite firstn_length. pose proof (le_nat_range (firstn 2 file)). lia.
Qed.

Lemma no_header_spec file : (length file < 2 -> read_ats_header file = Err OtherException) /\
  (2 <= length file -> length file < 1024 \/ (exists h, firstn 2 file = le_bytes 2 h /\ 0 <= h < 1024)%Z ->
   read_ats_header file = Err StructError).
Proof.
  destruct (no_header file) as (H1 & H2). split; [exact H1|]. intros H H3. apply H2; [exact H|]. destruct H3 as [H3|(h & E & Hh)]; [auto|].
  right. rewrite E, le_nat_bytes. change (2 ^ (8 * Z.of_nat 2))%Z with 65536%Z. rewrite Z.mod_small; lia.
Qed.

Lemma layout_ok :
  (forall i o name c, nth_error layout i = Some (o, name, c) -> o = list_sum (map fsize (firstn i codes))) /\
  list_sum (map fsize codes) = 1024 /\ NoDup names.
Proof.
  split; [|split; [exact codes_sum|exact names_nodup]].
  assert (G : forall l pos, offsets_ok l pos = true -> forall i o name c, nth_error l i = Some (o, name, c) ->
    o = pos + list_sum (map fsize (firstn i (map snd l)))).
  { induction l as [|[[o' n'] c'] l IH]; intros pos H i o name c Hi; [destruct i; discriminate|]. simpl in H.
    apply andb_true_iff in H as (H1 & H2). apply Nat.eqb_eq in H1. destruct i as [|i]; simpl in Hi |- *.
    - injection Hi as <- _ _. lia.
    - rewrite (IH _ H2 i o name c Hi). lia. }
  intros i o name c Hi. exact (G layout 0 layout_offsets i o name c Hi).
Qed.

(** every sequence of bytes of the right length is a header *)
Lemma packed_any : forall fmt, Forall (fun c => 0 < fsize c) fmt -> forall b, length b = list_sum (map fsize fmt) ->
  exists vs, Forall2 fits fmt vs /\ packed fmt vs = b.
Proof.
  induction fmt as [|c fmt IH]; intros Hp b Hb.
  - exists []. split; [constructor|]. destruct b; [reflexivity|discriminate].
  - inversion Hp as [|? ? H1 H2]; subst. simpl in Hb. destruct (IH H2 (skipn (fsize c) b)) as (vs & H3 & H4); [rewrite skipn_length; lia|].
    destruct (fdecode_fits c (firstn (fsize c) b)) as (H5 & H6); [rewrite firstn_length; lia|exact H1|].
    exists (fdecode c (firstn (fsize c) b) :: vs). split; [constructor; assumption|]. simpl. rewrite H6, H4. apply firstn_skipn.
Qed.
Lemma header_fields file h : firstn 2 file = le_bytes 2 h -> (1024 <= h < 65536)%Z -> 1024 <= length file ->
  exists header, read_ats_header file = Ok header /\ dkeys header = names /\
  forall o name c, In (o, name, c) layout -> exists v, fits c v /\ fencode c v = firstn (fsize c) (skipn o file) /\
  dget name header = Some (in_units name v).
Proof.
  intros Hh Hr Hl. destruct (positions_tight codes 0 codes_tight) as (_ & _ & Hpos).
  destruct (packed_any codes Hpos (firstn 1024 file)) as (vs & Hf & Hp); [rewrite codes_sum, firstn_length; lia|].
  assert (E : file = packed codes vs ++ skipn 1024 file) by (rewrite Hp; symmetry; apply firstn_skipn).
  destruct (first_field vs Hf) as (z & vs' & Ev & Hz & Hb). specialize (Hb (skipn 1024 file)). rewrite <- E in Hb.
  exists (units (combine names vs)). split; [|split].
  - rewrite E at 1. apply (read_header vs (skipn 1024 file) Hf z vs' Ev). change 16%Z with (8 * Z.of_nat 2)%Z. rewrite <- le_nat_bytes, <- Hb, Hh, le_nat_bytes.
    change (2 ^ (8 * Z.of_nat 2))%Z with 65536%Z. rewrite Z.mod_small; lia.
  - unfold dkeys, units. rewrite map_map. cbn [fst]. apply map_fst_combine. rewrite names_codes. exact (Forall2_len _ _ _ Hf).
  - intros o name c Hin. destruct (header_field vs Hf o name c Hin) as (v & H1 & H2 & H3). exists v. split; [exact H2|].
    split; [rewrite <- (H3 (skipn 1024 file)), <- E; reflexivity|]. apply units_ok; assumption.
Qed.

(** ** Samples *)
Section Load.
Context {A : Arith} {V K F : Type}.
Variables (kone : K) (rate_of : Z -> num A) (scale : Z -> Z -> V) (fs : F -> option bytes).

Lemma ats_stored vs xs file : ats_file vs xs file ->
  exists h, (1024 <= h)%Z /\ In ("header_length"%string, VI h) (combine names vs) /\ stored (le_bytes 4) 4 h file xs.
Proof.
  intros [Hf Hx (more & trailing & -> & Hin & Ht)]. exists (Z.of_nat (1024 + length more)). split; [lia|]. split; [exact Hin|].
  exists (packed codes vs ++ more), trailing. split; [rewrite !app_assoc; reflexivity|]. split; [|exact Ht].
  rewrite app_length, (header_length_1024 _ Hf). reflexivity.
Qed.

Lemma header_first vs h : Forall2 fits codes vs -> In ("header_length"%string, VI h) (combine names vs) -> exists vs', vs = VI h :: vs' /\ (- 2 ^ 15 <= h < 2 ^ 15)%Z.
Proof.
  intros H Hin. destruct (first_field _ H) as (z & vs' & E & Hz & _). exists vs'.
  apply (header_field_ok _ _ _ H) in Hin. rewrite E in Hin. destruct names_first as (ns & En). rewrite En in Hin. cbn [combine dget] in Hin.
  rewrite String.eqb_refl in Hin. injection Hin as ->. auto.
Qed.

Lemma ats_header vs xs file : ats_file vs xs file -> read_ats_header file = Ok (units (combine names vs)).
Proof.
  intros Ha. destruct (ats_stored _ _ _ Ha) as (h & Hh & Hin & _). destruct Ha as [Hf _ (more & trailing & -> & _)].
  destruct (header_first _ _ Hf Hin) as (vs' & E & Hr).
  apply (read_header vs _ Hf h vs' E). rewrite Z.mod_small; lia.
Qed.

Definition field_z (vs : list fval) (name : string) : option Z :=
  match dget name (combine names vs) with Some (VI z) | Some (VF z) => Some z | _ => None end.

Lemma lists_nd_list {W} (a : nd W) l : lists a l -> nd_list a = l.
Proof.
  intros (Hs & Hg). unfold nd_list. rewrite Hs. simpl. apply nth_error_ext. intros i. rewrite nth_error_map, nth_error_seq.
  destruct (Nat.ltb_spec i (length l)); simpl.
  - destruct (nth_error l i) as [x|] eqn:E; [|apply nth_error_None in E; lia]. f_equal. apply Hg. exact E.
  - symmetry. apply nth_error_None. lia.
Qed.

Lemma py_slice_full {W} (l : list W) : py_slice l full_slice = Ok l.
Proof.
  unfold py_slice. rewrite slice_range_full. cbn [bind].
  assert (H : forall m (pre : list W), mapM (znth_res (pre ++ m)) (map Z.of_nat (seq (length pre) (length m))) = Ok m).
  { induction m as [|x m IH]; intros pre; [reflexivity|]. simpl length. simpl seq. simpl map. rewrite mapM_cons.
    unfold znth_res at 1. rewrite (proj2 (Z.ltb_ge _ _)) by lia. rewrite Nat2Z.id. unfold nth_res.
    rewrite nth_error_app2, Nat.sub_diag by lia. cbn [nth_error of_option bind].
    specialize (IH (pre ++ [x])). rewrite <- app_assoc in IH. simpl app in IH. rewrite app_length in IH. simpl length in IH.
    rewrite Nat.add_1_r in IH. rewrite IH. reflexivity. }
  apply (H l []).
Qed.

Lemma read_sample f vs xs file rate start size lsb : fs f = Some file -> ats_file vs xs file ->
  In ("sampling_rate"%string, VF rate) (combine names vs) -> In ("start"%string, VI start) (combine names vs) ->
  In ("sample_length"%string, VI size) (combine names vs) -> In ("lsbval"%string, VF lsb) (combine names vs) ->
  read_ats_sample rate_of scale fs f =
  if (0 <? Z.min size (Z.of_nat (length xs)))%Z
  then Ok (map (scale lsb) (firstn (Z.to_nat size) xs), rate_of rate, start)
  else Err AssertionError.
Proof.
  intros Hfs Ha H1 H2 H3 H4. pose proof (af_fits _ _ _ Ha) as Hf. destruct (ats_stored _ _ _ Ha) as (h & Hh & Hin & Hst).
  unfold read_ats_sample. rewrite Hfs. cbn [of_option bind]. rewrite (ats_header _ _ _ Ha). cbn [bind].
  unfold get_bits, get_int.
  rewrite (units_ok _ _ _ Hf H1), (units_ok _ _ _ Hf H2), (units_ok _ _ _ Hf Hin), (units_ok _ _ _ Hf H3), (units_ok _ _ _ Hf H4).
  cbn [in_units orb String.eqb Ascii.eqb Bool.eqb bind].
  pose proof (bin_new_ok 4 (le_bytes 4) le_signed int32 int32_codec h file xs Hst (af_xs _ _ _ Ha) size) as Hb.
  destruct (Z.ltb_spec 0 (Z.min size (Z.of_nat (length xs)))) as [Hp|Hp].
  - rewrite (proj2 (Hb _) (conj Hp eq_refl)). cbn [bind].
    set (n := Z.to_nat (Z.min size (Z.of_nat (length xs)))).
    assert (Hfw : SpecProxy.forward full_slice n). { split; [exact I|]. simpl. lia. }
    destruct (bin_slice 0%Z 4 (le_bytes 4) le_signed int32 int32_codec h file xs n Hst (af_xs _ _ _ Ha) ltac:(unfold n; lia) full_slice Hfw)
      as (r & l & Hr & Hl & Hls).
    unfold ix_full. rewrite Hr. cbn [bind]. rewrite (lists_nd_list _ _ Hls). rewrite py_slice_full in Hl. injection Hl as <-.
    do 2 f_equal. f_equal. f_equal. unfold n. destruct (Z.min_spec size (Z.of_nat (length xs))) as [(Hm & ->)|(Hm & ->)]; [reflexivity|].
    rewrite Nat2Z.id, firstn_all, firstn_all2 by lia. reflexivity.
  - destruct (bin_new file h size 4 le_signed) as [p|e] eqn:E.
    + destruct (proj1 (Hb p) eq_refl) as (Hp' & _). lia.
    + cbn [bind]. unfold bin_new in E. cbv zeta in E. destruct (proxy_shape_ok _); [discriminate|]. simpl in E. congruence.
Qed.
End Load.

(** ** [load_ats] *)
From Verif Require Import SetProofs.
Section LoadAll.
Context {A : Arith} {V K F : Type}.
Variables (kone : K) (rate_of : Z -> num A) (scale : Z -> Z -> V) (fs : F -> option bytes).

Definition loaded (c : chan) : list V * num A * Z := (map (scale (c_lsb c)) (c_samples c), rate_of (c_rate c), c_first c).

Lemma read_channel f c : channel fs f c ->
  read_ats_sample rate_of scale fs f = if (0 <? Z.of_nat (length (c_samples c)))%Z then Ok (loaded c) else Err AssertionError.
Proof.
  intros ((file & Hfs & Ha) & H1 & H2 & H3 & H4).
  rewrite (read_sample rate_of scale fs f _ _ file _ _ _ _ Hfs Ha H1 H2 H3 H4). unfold loaded, c_samples.
  rewrite firstn_length.
  destruct (Z.ltb_spec 0 (Z.min (c_count c) (Z.of_nat (length (c_raw c))))), (Z.ltb_spec 0 (Z.of_nat (Nat.min (Z.to_nat (c_count c)) (length (c_raw c))))); try reflexivity; lia.
Qed.

Lemma read_channels fns cs : Forall2 (channel fs) fns cs -> Forall (fun c => c_samples c <> []) cs ->
  mapM (read_ats_sample rate_of scale fs) fns = Ok (map loaded cs).
Proof.
  induction 1 as [|f c fns cs H1 H2 IH]; intros H; [reflexivity|]. inversion H as [|? ? Hc Hr]; subst.
  rewrite mapM_cons, (read_channel f c H1). rewrite (proj2 (Z.ltb_lt _ _)). 2: { destruct (c_samples c); [congruence|simpl; lia]. }
  cbn [bind]. rewrite (IH Hr). reflexivity.
Qed.

Lemma read_channels_inv fns cs smp : Forall2 (channel fs) fns cs -> mapM (read_ats_sample rate_of scale fs) fns = Ok smp ->
  Forall (fun c => c_samples c <> []) cs.
Proof.
  intros H. revert smp. induction H as [|f c fns cs H1 H2 IH]; intros smp H; [constructor|]. rewrite mapM_cons in H.
  apply bind_ok in H as (y & Hy & H). apply bind_ok in H as (r & Hr & H). constructor; [|eapply IH; exact Hr].
  rewrite (read_channel f c H1) in Hy. intros E. rewrite E in Hy. discriminate.
Qed.

Hypothesis Heq : forall x y, neqb A x y = true <-> x = y.

Lemma load_ok fns cs cal s : Forall2 (channel fs) fns cs ->
  load_ats kone rate_of scale fs fns cal = Ok s ->
  Forall (fun c => c_samples c <> []) cs /\
  exists rate start, Forall (fun c => rate_of (c_rate c) = rate /\ c_first c = start) cs /\
    sync_new kone (map (fun c => map (scale (c_lsb c)) (c_samples c)) cs) rate (nofZ A start) cal = Ok s.
Proof.
  intros H Hl. unfold load_ats in Hl. apply bind_ok in Hl as (smp & Hs & Hl). pose proof (read_channels_inv _ _ _ H Hs) as Hne.
  split; [exact Hne|]. rewrite (read_channels _ _ H Hne) in Hs. injection Hs as <-. rewrite !map_map in Hl. cbn [loaded fst snd] in Hl.
  destruct (dedup Z.eqb (map (fun c => c_first c) cs)) as [|start [|? ?]] eqn:E1; try discriminate.
  destruct (dedup (neqb A) (map (fun c => rate_of (c_rate c)) cs)) as [|rate [|? ?]] eqn:E2; try discriminate.
  apply (dedup_all_eq Z.eqb Z.eqb_eq) in E1 as (_ & E1). apply (dedup_all_eq (neqb A) Heq) in E2 as (_ & E2).
  exists rate, start. split; [|exact Hl]. apply Forall_forall. intros c Hc. split.
  - apply E2. apply in_map_iff. eauto.
  - apply E1. apply in_map_iff. eauto.
Qed.

Lemma load_exists fns cs cal rate start : Forall2 (channel fs) fns cs -> cs <> [] -> Forall (fun c => c_samples c <> []) cs ->
  Forall (fun c => rate_of (c_rate c) = rate /\ c_first c = start) cs ->
  load_ats kone rate_of scale fs fns cal = sync_new kone (map (fun c => map (scale (c_lsb c)) (c_samples c)) cs) rate (nofZ A start) cal.
Proof.
  intros H Hne Hs Hall. unfold load_ats. rewrite (read_channels _ _ H Hs). cbn [bind]. rewrite !map_map. cbn [loaded fst snd].
  rewrite Forall_forall in Hall.
  assert (E1 : dedup Z.eqb (map (fun c => c_first c) cs) = [start]).
  { apply (dedup_all_eq Z.eqb Z.eqb_eq). split; [destruct cs; [congruence|discriminate]|].
    intros y Hy. apply in_map_iff in Hy as (c & <- & Hc). apply Hall. exact Hc. }
  assert (E2 : dedup (neqb A) (map (fun c => rate_of (c_rate c)) cs) = [rate]).
  { apply (dedup_all_eq (neqb A) Heq). split; [destruct cs; [congruence|discriminate]|].
    intros y Hy. apply in_map_iff in Hy as (c & <- & Hc). apply Hall. exact Hc. }
  rewrite E1, E2. reflexivity.
Qed.
End LoadAll.

(** whatever the arithmetic *)
Lemma load_any {A : Arith} {V K F} (kone : K) rate_of (scale : Z -> Z -> V) (fs : F -> option bytes) fns cs cal (s : sync A V K) :
  Forall2 (channel fs) fns cs -> load_ats kone rate_of scale fs fns cal = Ok s ->
  s_data s = map (fun c => map (scale (c_lsb c)) (c_samples c)) cs /\
  (exists c, hd_error cs = Some c /\ s_rate s = rate_of (c_rate c)) /\
  (exists start, s_start s = nofZ A start /\ forall c, In c cs -> c_first c = start).
Proof.
  intros H Hl. unfold load_ats in Hl. apply bind_ok in Hl as (smp & Hs & Hl). pose proof (read_channels_inv _ _ _ _ _ _ H Hs) as Hne.
  rewrite (read_channels _ _ _ _ _ H Hne) in Hs. injection Hs as <-. rewrite !map_map in Hl. cbn [loaded fst snd] in Hl.
  destruct (dedup Z.eqb (map (fun c => c_first c) cs)) as [|start [|? ?]] eqn:E1; try discriminate.
  destruct (dedup (neqb A) (map (fun c => rate_of (c_rate c)) cs)) as [|rate [|? ?]] eqn:E2; try discriminate.
  apply (dedup_all_eq Z.eqb Z.eqb_eq) in E1 as (_ & E1).
  apply sync_new_inv in Hl as (Hd & Hr & Hst & _). split; [exact Hd|]. split.
  - destruct cs as [|c cs]; [discriminate|]. simpl in E2. injection E2 as E2 _. exists c. split; [reflexivity|]. congruence.
  - exists start. split; [exact Hst|]. intros c Hc. apply E1. apply in_map_iff. eauto.
Qed.

Lemma header_decodes vs rest h : Forall2 fits codes vs -> In ("header_length"%string, VI h) (combine names vs) -> (1024 <= h)%Z ->
  exists header, read_ats_header (packed codes vs ++ rest) = Ok header /\
  (forall name v, In (name, v) (combine names vs) -> dget name header = Some (in_units name v)) /\ dkeys header = names.
Proof.
  intros H Hin Hh. destruct (header_first _ _ H Hin) as (vs' & E & Hr). exists (units (combine names vs)).
  split; [apply (read_header vs rest H h vs' E); rewrite Z.mod_small; lia|].
  split; [intros name v Hi; apply units_ok; assumption|].
  unfold dkeys, units. rewrite map_map. cbn [fst]. apply map_fst_combine. rewrite names_codes. exact (Forall2_len _ _ _ H).
Qed.

Lemma load_iff {V K F} (kone : K) (rate_of : Z -> num QA) (scale : Z -> Z -> V) (fs : F -> option bytes) fns cs cal :
  Forall2 (channel fs) fns cs ->
  ((exists s : sync QA V K, load_ats kone rate_of scale fs fns cal = Ok s) <->
   fns <> [] /\ Forall (fun c => c_samples c <> []) cs /\
   (forall c d, In c cs -> In d cs ->
      rate_of (c_rate c) = rate_of (c_rate d) /\ c_first c = c_first d /\ length (c_samples c) = length (c_samples d)) /\
   (forall l, cal = Some l -> l = [] \/ length l = length fns)).
Proof.
  intros H. assert (Heq : forall x y, neqb QA x y = true <-> x = y) by exact Qceqb_eq.
  pose proof (Forall2_len _ _ _ H) as Hlen. split.
  - intros (s & Hs). destruct (load_ok kone rate_of scale fs Heq fns cs cal s H Hs) as (Hne & rate & start & Hall & Hn).
    apply sync_new_inv in Hn as (Hd & _ & _ & Hok & Hc). rewrite Forall_forall in Hall. split; [|split; [exact Hne|split]].
    + intros ->. inversion H; subst. destruct Hok as [? ? ?]. rewrite Hd in *. simpl in *. congruence.
    + intros c d Hc1 Hd1. destruct (Hall c Hc1), (Hall d Hd1). split; [congruence|]. split; [congruence|].
      assert (G : forall x, In x cs -> length (c_samples x) = s_size s).
      { intros x Hx. rewrite <- (so_size _ Hok (map (scale (c_lsb x)) (c_samples x))).
        - rewrite map_length. reflexivity.
        - rewrite Hd. apply in_map_iff. eauto. }
      rewrite (G c Hc1), (G d Hd1). reflexivity.
    + intros l ->. destruct l as [|k l]; [auto|right]. pose proof (so_cal _ Hok) as Hcal. rewrite Hc, Hd, map_length in Hcal. lia.
  - intros (Hne & Hs & Hall & Hcal).
    destruct cs as [|c0 cs]; [inversion H; subst; congruence|].
    assert (Hsame : Forall (fun c => rate_of (c_rate c) = rate_of (c_rate c0) /\ c_first c = c_first c0) (c0 :: cs)).
    { apply Forall_forall. intros c Hc. destruct (Hall c c0 Hc (or_introl eq_refl)) as (? & ? & _). auto. }
    rewrite (load_exists kone rate_of scale fs Heq fns (c0 :: cs) cal _ _ H ltac:(discriminate) Hs Hsame).
    set (data := map _ (c0 :: cs)).
    assert (Hdl : forall c d, In c data -> In d data -> length c = length d).
    { unfold data. intros x y Hx Hy. apply in_map_iff in Hx as (c & <- & Hc). apply in_map_iff in Hy as (d & <- & Hd).
      rewrite !map_length. apply Hall; assumption. }
    assert (Hdn : data <> []) by discriminate.
    assert (Hld : length data = length fns) by (unfold data; rewrite map_length; lia).
    set (rate := rate_of (c_rate c0)). set (start := nofZ QA (c_first c0)).
    destruct cal as [[|k cal]|].
    + destruct (sync_new_exists (A := QA) kone data rate start (repeat kone (length data)) Hdn (repeat_length _ _) Hdl) as [s Es].
      exists s. rewrite <- Es. reflexivity.
    + apply sync_new_exists; [exact Hdn| |exact Hdl]. destruct (Hcal _ eq_refl) as [E|E]; [discriminate|lia].
    + destruct (sync_new_exists (A := QA) kone data rate start (repeat kone (length data)) Hdn (repeat_length _ _) Hdl) as [s Es].
      exists s. rewrite <- Es. reflexivity.
Qed.
