(** Sample ATS files. *)
From Coq Require Import QArith Qcanon.
From Verif Require Import Base Arith SyncModel ProxyModel AtsModel SpecAts AtsProofs BaseLemmas.
Open Scope string_scope. Open Scope list_scope. Open Scope nat_scope.

(** value of a field, by name; other fields are zero *)
Definition field_of (known : dict fval) (nc : string * fcode) : fval :=
  match dget (fst nc) known with
  | Some v => v
  | None => match snd nc with Fint _ _ => VI 0 | Fflt _ => VF 0 | Fstr n => VS (repeat "000"%char n) end
  end.
Definition fields (known : dict fval) : list fval := map (fun f => field_of known (snd (fst f), snd f)) layout.

(** 512 Hz (binary32), lsb 1.0 (binary64) *)
Definition hz512 : Z := 1140850688.
Definition one64 : Z := 4607182418800017408.
Definition header (hlen count rate start : Z) : list fval :=
  fields [("header_length", VI hlen); ("header_version", VI 80); ("sample_length", VI count); ("sampling_rate", VF rate);
          ("start", VI start); ("lsbval", VF one64); ("channel_number", VI (-3)); ("ADU_Lat", VI 172800000); ("channel_type", VS ["E"; "x"]%char)].

Definition ats (vs : list fval) (more : nat) (xs : list Z) : bytes :=
  packed codes vs ++ repeat "111"%char more ++ concat (map (le_bytes 4) xs).

Definition c1 : chan := mkChan (header 1024 3 hz512 1000) [5; -6; 7; 8]%Z hz512 1000 3 one64.
Definition c2 : chan := mkChan (header 1030 9 hz512 1000) [1; 2; -3]%Z hz512 1000 9 one64.
Definition c3 : chan := mkChan (header 1024 3 hz512 1001) [1; 2; 3]%Z hz512 1001 3 one64.
Definition disk (f : string) : option bytes :=
  if String.eqb f "a.ats" then Some (ats (c_fields c1) 0 (c_raw c1))
  else if String.eqb f "b.ats" then Some (ats (c_fields c2) 6 (c_raw c2))
  else if String.eqb f "c.ats" then Some (ats (c_fields c3) 0 (c_raw c3))
  else None.

(** exact values of the two patterns used here *)
Definition rate_q (bits : Z) : Qc := if (bits =? hz512)%Z then Q2Qc (512 # 1) else Q2Qc 0.
Definition scale_q (lsb x : Z) : Z := if (lsb =? one64)%Z then x else 0%Z.

(** decidable membership and fitting, to check samples by computation *)
Definition fitsb (c : fcode) (v : fval) : bool :=
  match c, v with
  | Fint n true, VI z => (- 2 ^ (8 * Z.of_nat n - 1) <=? z)%Z && (z <? 2 ^ (8 * Z.of_nat n - 1))%Z
  | Fint n false, VI z => (0 <=? z)%Z && (z <? 2 ^ (8 * Z.of_nat n))%Z
  | Fflt n, VF z => (0 <=? z)%Z && (z <? 2 ^ (8 * Z.of_nat n))%Z
  | Fstr n, VS s => length s =? n
  | _, _ => false
  end.
Lemma fitsb_ok c v : fitsb c v = true -> fits c v.
Proof.
  destruct c as [n []|n|n], v; simpl; intros H; try discriminate;
    try (apply andb_true_iff in H as (H1 & H2); apply Z.leb_le in H1; apply Z.ltb_lt in H2; lia).
  apply Nat.eqb_eq. exact H.
Qed.
Fixpoint fits_all (cs : list fcode) (vs : list fval) : bool :=
  match cs, vs with [], [] => true | c :: cs, v :: vs => fitsb c v && fits_all cs vs | _, _ => false end.
Lemma fits_all_ok : forall cs vs, fits_all cs vs = true -> Forall2 fits cs vs.
Proof.
  induction cs as [|c cs IH]; intros [|v vs] H; try discriminate; constructor; simpl in H; apply andb_true_iff in H as (H1 & H2);
    [apply fitsb_ok; exact H1|apply IH; exact H2].
Qed.
Lemma dget_In_pair {B} : forall (d : dict B) k v, dget k d = Some v -> In (k, v) d.
Proof.
  induction d as [|[k' v'] d IH]; intros k v H; [discriminate|]. simpl in H. destruct (String.eqb_spec k k').
  - injection H as ->. subst. left. reflexivity.
  - right. apply IH. exact H.
Qed.

Lemma chan_ok (fs : string -> option bytes) f c more : fs f = Some (ats (c_fields c) more (c_raw c)) ->
  fits_all codes (c_fields c) = true -> Forall int32 (c_raw c) ->
  dget "header_length" (combine names (c_fields c)) = Some (VI (Z.of_nat (1024 + more))) ->
  dget "sampling_rate" (combine names (c_fields c)) = Some (VF (c_rate c)) ->
  dget "start" (combine names (c_fields c)) = Some (VI (c_first c)) ->
  dget "sample_length" (combine names (c_fields c)) = Some (VI (c_count c)) ->
  dget "lsbval" (combine names (c_fields c)) = Some (VF (c_lsb c)) -> channel fs f c.
Proof.
  intros H1 H2 H3 H4 H5 H6 H7 H8. unfold channel. split; [|repeat split; apply dget_In_pair; assumption].
  eexists. split; [exact H1|]. split; [apply fits_all_ok; exact H2|exact H3|].
  exists (repeat "111"%char more), []. split; [unfold ats; rewrite app_nil_r; reflexivity|].
  split; [rewrite repeat_length; apply dget_In_pair; exact H4|simpl; lia].
Qed.

#[local] Opaque ats codes names byte_format.
Lemma chan1 : channel disk "a.ats" c1.
Proof. apply (chan_ok disk "a.ats" c1 0); [reflexivity|vm_compute; reflexivity| |vm_compute; reflexivity..]. repeat constructor; unfold int32; lia. Qed.
Lemma chan2 : channel disk "b.ats" c2.
Proof. apply (chan_ok disk "b.ats" c2 6); [reflexivity|vm_compute; reflexivity| |vm_compute; reflexivity..]. repeat constructor; unfold int32; lia. Qed.
Lemma chan3 : channel disk "c.ats" c3.
Proof. apply (chan_ok disk "c.ats" c3 0); [reflexivity|vm_compute; reflexivity| |vm_compute; reflexivity..]. repeat constructor; unfold int32; lia. Qed.

(** a header of 32768 bytes *)
Definition zero_field (c : fcode) : fval := match c with Fint _ _ => VI 0 | Fflt _ => VF 0 | Fstr n => VS (repeat "000"%char n) end.
Definition long_fields : list fval := VI (-32768) :: map zero_field (tl codes).
Lemma long_fits : Forall2 fits codes long_fields.
Proof. apply fits_all_ok. vm_compute. reflexivity. Qed.

Lemma long_header : exists file : bytes, length file = 32 * 1024 + 4 /\ firstn 2 file = le_bytes 2 32768 /\
  exists header, read_ats_header file = Ok header /\ dget "header_length" header = Some (VI (-32768)) /\
  forall p, bin_new file (-32768) 1 4 le_signed = Ok p -> bin_get 0%Z p [IxInt 0] = Err OtherException.
Proof.
  exists (packed codes long_fields ++ repeat "000"%char (31 * 1024 + 4)). split.
  { rewrite app_length, repeat_length, (header_length_1024 _ long_fits). lia. }
  split. { destruct (first_field _ long_fits) as (z & vs' & E & _ & Hf). rewrite Hf. injection E as <- _. vm_compute. reflexivity. }
  exists (units (combine names long_fields)). split.
  { apply (read_header _ _ long_fits (-32768)%Z (map zero_field (tl codes)) eq_refl). vm_compute. discriminate. }
  split; [vm_compute; reflexivity|]. generalize (packed codes long_fields ++ repeat "000"%char (31 * 1024 + 4)). intros file p Hp.
  unfold bin_new in Hp. apply bind_ok in Hp as ([] & Hc & Hp). injection Hp as <-. unfold bin_get, proxy_get. cbn [bf_size].
  set (n := Z.to_nat _). assert (Hn : 0 < n). { unfold proxy_shape_ok in Hc. cbn [forallb] in Hc. rewrite andb_true_r in Hc. apply check_ok, Z.ltb_lt in Hc. unfold n. lia. } clearbody n.
  simpl (length [_] <=? length [_]). cbn [check bind]. rewrite ProxyProofs.complete_all by reflexivity. cbn [combine mapM fst snd].
  unfold to_slice. change (if (0 <? 0)%Z then (0 + Z.of_nat n)%Z else 0%Z) with 0%Z.
  rewrite (proj2 (Z.ltb_lt 0 (Z.of_nat n))) by lia. reflexivity.
Qed.
