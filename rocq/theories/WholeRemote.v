(** Least squares with and without remote reference, from the coefficients to the
    results. *)
From Coq Require Import Reals Lra.
From Coquelicot Require Import Complex.
From mathcomp Require Import all_ssreflect all_algebra.
From Verif Require Import WlseModel WlseProofs CField RemoteMx.
From Verif Require Import Base BaseLemmas Arith TagsModel SyncModel SetModel FourierModel MestModel SpecMest WeightModel RobustModel BiModel
  SimProofs FullModel SpecFull FullProofs PrefilterModel UtilsModel SpecUtils WholeModel WholeScale WholeUnits SpecWhole SpecRemote WholeImpedance.
Set Implicit Arguments.
Unset Strict Implicit.
Unset Printing Implicit Defensive.
Import GRing.Theory.
Local Open Scope ring_scope.
Local Notation H := (herm cjC).

Lemma csum_big n f : csum n f = \sum_(t < n) f t.
Proof.
rewrite /csum; have E : forall s, fold_right Cplus (RtoC 0) (List.map f (List.seq s n)) = \sum_(t < n) f (s + t)%nat.
  elim: n => [|n IH] s /=; first by rewrite big_ord0.
  rewrite big_ord_recl addn0 IH; congr (_ + _); apply: eq_bigr => i _; by rewrite /= /bump /= addnA addn1.
by rewrite E.
Qed.

(** the matrix of channels, one column for each *)
Definition chan n q (ll : list (list C)) : 'M[C]_(n, q) := \matrix_(t, i) entry ll i t.

Lemma size_l_rows ll : size (l_rows ll) = columns_of ll.
Proof. by rewrite /l_rows size_map size_iota. Qed.
Lemma width_l_rows ll : is_true (leq 1 (columns_of ll)) -> width (l_rows ll) = size ll.
Proof. by rewrite /width /l_rows; case: (columns_of ll) => //= n _; rewrite size_map. Qed.
Lemma rows_chan n ll : columns_of ll = n -> rows n (mx_rows (size ll) (l_rows ll)) = chan n (size ll) ll.
Proof.
move=> L; apply/matrixP => t i; rewrite !mxE (nth_map [::]) ?size_l_rows ?L // mxE (nth_map O) ?size_iota ?L // nth_iota ?L //.
by rewrite (nth_map [::]).
Qed.

Lemma values_column q (z : list C) : size z = q -> values (column_of q z) = z.
Proof.
move=> L; apply: (@eq_from_nth _ 0); first by rewrite size_values.
move=> i; rewrite size_values => Hi; by rewrite (nth_values _ (Ordinal Hi)) mxE.
Qed.
Lemma column_values q (z : 'cV[C]_q) : column_of q (values z) = z.
Proof. by apply/colP => i; rewrite mxE nth_values. Qed.

(** the least-squares solution of one output *)
Lemma l_wlse_ok n ll e z : size e = n -> columns_of ll = n -> is_true (leq 1 n) -> size z = size ll ->
  H (chan n (size ll) ll) *m chan n (size ll) ll \in unitmx ->
  H (chan n (size ll) ll) *m chan n (size ll) ll *m column_of (size ll) z = H (chan n (size ll) ll) *m column_of n e ->
  l_wlse e (l_rows ll) None = Ok z.
Proof.
move=> Le Lc Hn Lz U E; rewrite /l_wlse width_l_rows ?Lc // /full_wlse /=.
rewrite (wlse_rows_n _ (n := n)) // rows_chan //=.
have -> : wlse cjC (\col_(i < n) seq.nth 0 e i) (chan n (size ll) ll) None = Some (column_of (size ll) z) by apply/wlse_iff.
by rewrite /= values_column.
Qed.

(** every output, no rejected window *)
Lemma plain_outputs (o : opts listK) (outputs rows : list (list C)) (zs : list (list C)) (h : heap listW) :
  rows <> [::] -> outputs <> [::] -> List.Forall2 (fun e z => List.length e = List.length rows /\ l_wlse e rows None = Ok z) outputs zs ->
  transfer_function (k := listK) o outputs rows [:: None] None (IvEach (repeat [::] (List.length outputs))) h = (Ok (List.map (fun z => (Some z, [::])) zs), h).
Proof.
have MR n : List.map Ok (repeat ([::] : list Z) n) = repeat (Ok [::]) n by elim: n => //= n ->.
move=> Hr Ho F; rewrite /transfer_function /iv_each.
have -> : (match repeat [::] (List.length outputs) with [::] => Ok (repeat (Ok [::]) (List.length outputs)) | _ => Ok (List.map Ok (repeat [::] (List.length outputs))) end)
  = Ok (repeat (Ok ([::] : list Z)) (List.length outputs)) :> res (list (res (list Z))).
  case: outputs Ho {F} => //= e os _; by rewrite MR.
rewrite /= List.repeat_length.
have -> : (List.length outputs =? 0)%nat = false by case: outputs Ho {F}.
rewrite Nat.eqb_refl /=.
have -> : forallb (fun e => (List.length e =? List.length rows)%nat) outputs = true.
  apply/List.forallb_forall => e Hin; have [i Hi] := List.In_nth_error _ _ Hin.
  have [z [_ [L _]]] := Forall2_nth_error _ _ _ _ _ F Hi; by apply/Nat.eqb_eq.
rewrite /= List.repeat_length Nat.eqb_refl /=.
elim: F => [|e z os zs' [L E] _ IH] //=; rewrite {1}/solve /=.
have -> : (List.length e =? 0)%nat = false by rewrite L; case: (rows) Hr.
by rewrite /= E /= IH.
Qed.

(** ** One set of coefficients *)
Definition all_of (n : nat) (ll : list (list C)) : Prop := List.Forall (fun l => size l = n) ll.
Lemma all_columns n ll : all_of n ll -> ll <> [::] -> columns_of ll = n.
Proof. by case: ll => // l ll Hl _; inversion Hl. Qed.
Lemma all_nth n ll i : all_of n ll -> is_true (leq (S i) (size ll)) -> size (seq.nth [::] ll i) = n.
Proof. move=> Hl; elim: Hl i => [|l ll' Hn _ IH] [|i] //=; exact: IH. Qed.

Section Second.
Variables (a : arguments) (n : nat) (e be z : list (list C)) (h : heap listW).
Hypotheses (Rp : ia_real_pb a = false) (Hn : is_true (leq 1 n)) (Ne : e <> [::]) (Nb : be <> [::]) (Ae : all_of n e) (Ab : all_of n be).
Hypotheses (Lz : size z = size e) (Az : all_of (size be) z).
Let Y := chan n (size be) be.
Hypotheses (U : H Y *m Y \in unitmx)
  (S : forall i, is_true (leq (i.+1) (size e)) -> H Y *m Y *m column_of (size be) (seq.nth [::] z i) = H Y *m column_of n (seq.nth [::] e i)).

Lemma plain_estimate : estimate listU a e be [:: None] (repeat [::] (List.length e)) h = (Ok (List.map (fun z => (Some z, [::])) z), h).
Proof.
have Cb := all_columns Ab Nb.
rewrite /estimate Rp; apply: plain_outputs => //.
  by rewrite /= /l_rows Cb; case: (n) Hn.
have F (l l' : list (list C)) (P : list C -> list C -> Prop) : size l' = size l -> (forall i, is_true (leq (i.+1) (size l)) -> P (seq.nth [::] l i) (seq.nth [::] l' i)) -> List.Forall2 P l l'.
  elim: l l' => [|x l IH] [|y l'] //= [L] G; constructor; [exact: (G O)|apply: IH => // i Hi; exact: (G i.+1)].
apply: F => // i Hi; split.
  rewrite -[RHS]/(size (l_rows be)) size_l_rows Cb; exact: all_nth.
apply: (@l_wlse_ok n) => //; [exact: all_nth| apply: all_nth => //; by rewrite Lz|exact: S].
Qed.

Lemma plain_error ivs : size ivs = size e -> exists err, l_error e be z ivs = Ok err /\ u_eshape listK listU err = (size e, size be).
Proof.
move=> Li; rewrite /l_error.
have -> : l_gram be = (H Y *m Y)^T.
  apply/matrixP => i j; rewrite !mxE; rewrite (all_columns Ab Nb); apply: eq_bigr => t _; by rewrite !mxE mulrC.
rewrite unitmx_tr U; eexists; split; first by reflexivity.
rewrite /=; congr pair; first by rewrite size_map !size_zip Lz Li !minnn.
case: e Ne Lz Li => // e0 e' _; case: z => // z0 z' _; case: ivs => // i0 ivs' _ /=; by rewrite size_map size_enum_ord.
Qed.
End Second.

Section Picked.
Variables (coeffs : list (list C)) (n : nat).
Lemma picked idx : recorded coeffs n idx -> exists ll, mapM (fun i => nth_res coeffs i) idx = Ok ll /\ size ll = size idx /\ all_of n ll /\
  forall i t, (i < List.length idx)%coq_nat -> entry ll i t = channel coeffs idx i t.
Proof.
elim: idx => [|c idx IH] R; first by exists [::]; do 3!(split=> //); move=> i t Hi; inversion Hi.
have [|ll [E [L [A P]]]] := IH; first by move=> x Hx; apply: R; right.
have [line [Hl Ln]] := R c (or_introl erefl).
exists (line :: ll); rewrite /= {1}/nth_res Hl /= E; split=> //; split; first by rewrite /= L.
split; first by constructor.
move=> [|i] t Hi; last by rewrite /entry /=; apply: P; apply/Nat.succ_lt_mono.
rewrite /entry /channel /at_window /= (List.nth_error_nth _ _ _ Hl).
by elim: line t {Hl Ln Hi} => [|x line IHl] [|t] //=.
Qed.

(** correlations as products of matrices *)
Lemma correlation_mx rs br (F : 'cV[C]_n) (f : nat -> C) : size br = size rs -> (forall i t, (i < List.length rs)%coq_nat -> entry br i t = channel coeffs rs i t) ->
  (forall t : 'I_n, F t 0 = f t) -> forall k : 'I_(size br), (H (chan n (size br) br) *m F) k 0 = correlation coeffs n f rs k.
Proof.
move=> L P HF k; have Hk : (k < List.length rs)%coq_nat by apply/ltP; rewrite -[List.length rs]/(size rs) -L.
rewrite mxE /correlation csum_big; apply: eq_bigr => t _.
have -> : H (chan n (size br) br) k t = cjC (entry br k t) by rewrite !mxE.
rewrite HF (P _ _ Hk) mulrC; reflexivity.
Qed.
Lemma combination_mx bs b (v : nat -> C) (V : 'cV[C]_(size b)) : size b = size bs -> (forall i t, (i < List.length bs)%coq_nat -> entry b i t = channel coeffs bs i t) ->
  (forall j : 'I_(size b), V j 0 = v j) -> forall t : 'I_n, (chan n (size b) b *m V) t 0 = combination coeffs v bs t.
Proof.
move=> L P HV t; rewrite mxE /combination csum_big -[List.length bs]/(size bs) -L; apply: eq_bigr => j _.
have Hj : (j < List.length bs)%coq_nat by apply/ltP; rewrite -[List.length bs]/(size bs) -L.
have -> : chan n (size b) b t j = entry b j t by rewrite mxE.
rewrite HV (P _ _ Hj) mulrC; reflexivity.
Qed.
Lemma separate_mx rs br : size br = size rs -> (forall i t, (i < List.length rs)%coq_nat -> entry br i t = channel coeffs rs i t) -> separate coeffs n rs ->
  forall v : 'cV[C]_(size br), chan n (size br) br *m v = 0 -> v = 0.
Proof.
move=> L P S v E; apply/colP => j; rewrite mxE -(nth_values v j).
apply: (S (fun j => seq.nth 0 (values v) j)); last by apply/ltP; rewrite -[List.length rs]/(size rs) -L.
move=> t /ltP Ht; rewrite -(@combination_mx rs br _ v L P _ (Ordinal Ht)); first by rewrite E mxE.
by move=> i; rewrite nth_values.
Qed.
Lemma sees_mx rs br bs b : size br = size rs -> (forall i t, (i < List.length rs)%coq_nat -> entry br i t = channel coeffs rs i t) ->
  size b = size bs -> (forall i t, (i < List.length bs)%coq_nat -> entry b i t = channel coeffs bs i t) -> sees coeffs n rs bs ->
  forall v : 'cV[C]_(size b), H (chan n (size br) br) *m (chan n (size b) b *m v) = 0 -> v = 0.
Proof.
move=> Lr Pr Lb Pb S v E; apply/colP => j; rewrite mxE -(nth_values v j).
apply: (S (fun j => seq.nth 0 (values v) j)); last by apply/ltP; rewrite -[List.length bs]/(size bs) -Lb.
move=> k /ltP Hk; rewrite -[List.length rs]/(size rs) -Lr in Hk.
rewrite -(@correlation_mx rs br (chan n (size b) b *m v) _ Lr Pr _ (Ordinal Hk)); first by rewrite E mxE.
by move=> t; apply: combination_mx => // i; rewrite nth_values.
Qed.
Lemma noise_mx rs br bs b es e z i : size br = size rs -> (forall i t, (i < List.length rs)%coq_nat -> entry br i t = channel coeffs rs i t) ->
  size b = size bs -> (forall i t, (i < List.length bs)%coq_nat -> entry b i t = channel coeffs bs i t) ->
  size e = size es -> (forall i t, (i < List.length es)%coq_nat -> entry e i t = channel coeffs es i t) ->
  (i < List.length es)%coq_nat -> uncorrelated coeffs n (noise coeffs es bs z i) rs ->
  H (chan n (size br) br) *m (column_of n (seq.nth [::] e i) - chan n (size b) b *m column_of (size b) (seq.nth [::] z i)) = 0.
Proof.
have NN (T : Type) (x : T) l j : List.nth j l x = seq.nth x l j by elim: l j => [|y l IH] [|j] //=.
move=> Lr Pr Lb Pb Le Pe Hi Hu; apply/colP => k.
rewrite (@correlation_mx rs br _ (noise coeffs es bs z i) Lr Pr); first by rewrite mxE; apply: Hu; apply/ltP; rewrite -[List.length rs]/(size rs) -Lr.
move=> t; rewrite [LHS]mxE [X in _ + X]mxE (@combination_mx bs b (fun j => List.nth j (List.nth i z [::]) (RtoC 0))) // => [|j]; last by rewrite mxE !NN.
by rewrite mxE /noise -(Pe i t Hi).
Qed.
End Picked.

Section Coefficients.
Variables (a : arguments) (X : recordings) (coeffs : list (list C)) (w : windows) (h : heap listW) (n : nat) (es bs : list nat) (z : list (list C)).
Hypotheses (Ha : least_squares a) (He : t_get (ss_tags X) (ia_elec a) = Ok es) (Hb : t_get (ss_tags X) (ia_mag a) = Ok bs).
Hypotheses (Hn : is_true (leq 1 n)) (Ne : es <> [::]) (Nb : bs <> [::]) (Re : recorded coeffs n es) (Rb : recorded coeffs n bs).

Definition exactly (x : result) (nr : nat) : Prop :=
  ir_z listU x = Values z /\ ir_ivt listU x = repeat [::] (size es) /\ arr_shape (u_eshape listK listU) (ir_err listU x) = (size es, size bs) /\
  arr_shape (rows_shape (k := listK) listU) (ir_T listU x) = (size bs, nr).

Lemma no_times (l : list ((R * R) * (nat * nat * nat))) : invalid_times (k := listK) l [::] = [::].
Proof. by elim: l => [|[[rt st] [[N L] s]] l IH] //=. Qed.
Lemma map_repeat_nil (T T' : Type) (f : T' -> list T) (y : T') k : f y = [::] -> List.map f (repeat y k) = repeat [::] k.
Proof. by move=> Hf; elim: k => //= k ->; rewrite Hf. Qed.
Lemma fst_some (l : list (list C)) : mapM (of_option IndexError) (List.map fst (List.map (fun z : list C => (Some z, [::] : list Z)) l)) = Ok l.
Proof. by elim: l => //= x l ->. Qed.
Lemma fst_some' (l : list (list C)) : mapM (of_option ValueError) (List.map fst (List.map (fun z : list C => (Some z, [::] : list Z)) l)) = Ok l.
Proof. by elim: l => //= x l ->. Qed.
Lemma snd_nil (l : list (list C)) : List.map snd (List.map (fun z : list C => (Some z, [::] : list Z)) l) = repeat [::] (size l).
Proof. by elim: l => //= x l ->. Qed.
Lemma merged_nil k : merged (repeat [::] k) = [::].
Proof. by rewrite /merged; elim: k. Qed.
Lemma nonempty_of (idx : list nat) (ll : list (list C)) : size ll = size idx -> idx <> [::] -> ll <> [::].
Proof. by case: idx ll => [|i idx] [|l ll]. Qed.

(** the second stage *)
Lemma second_stage e be : mapM (fun i => nth_res coeffs i) es = Ok e -> size e = size es -> all_of n e -> size be = size bs -> all_of n be ->
  size z = size es -> all_of (size bs) z ->
  H (chan n (size be) be) *m chan n (size be) be \in unitmx ->
  (forall i, is_true (leq (i.+1) (size es)) -> H (chan n (size be) be) *m chan n (size be) be *m column_of (size be) (seq.nth [::] z i)
     = H (chan n (size be) be) *m column_of n (seq.nth [::] e i)) ->
  estimate listU a e be (ia_weights a) (repeat [::] (List.length e)) h = (Ok (List.map (fun z => (Some z, [::])) z), h) /\
  exists err, l_error e be z (repeat [::] (size es)) = Ok err /\ u_eshape listK listU err = (size es, size bs).
Proof.
move=> _ Le Ae Lb Ab Lz Az U S; case: (Ha) => [-> [_ [_ [_ Rp]]]].
have N1 := nonempty_of Le Ne; have N2 := nonempty_of Lb Nb.
have S' : forall i, is_true (leq (i.+1) (size e)) -> H (chan n (size be) be) *m chan n (size be) be *m column_of (size be) (seq.nth [::] z i)
     = H (chan n (size be) be) *m column_of n (seq.nth [::] e i) by rewrite Le.
rewrite -Lb in Az; rewrite -Le in Lz; split; first exact: (@plain_estimate a n e be z h Rp Hn N1 N2 Ae Ab Lz Az U S').
have [|err [E1 E2]] := @plain_error n e be z N1 N2 Ab Lz U (repeat [::] (size es)).
  by rewrite -[LHS]/(List.length _) List.repeat_length Le.
by exists err; split=> //; rewrite -Le -Lb.
Qed.

(** without remote reference *)
Lemma local_coeffs : remote_name a = None -> separate coeffs n bs -> related coeffs n es bs bs z ->
  exists x, impedance_coeffs listU a X coeffs w h = (Ok x, h) /\ exactly x 0.
Proof.
move=> Hr Sb [[Lz Tz] Un].
have [e [Ee [Le [Ae Pe]]]] := picked Re; have [b [Eb [Lb [Ab Pb]]]] := picked Rb.
have Ib := separate_mx Lb Pb Sb.
have U : H (chan n (size b) b) *m chan n (size b) b \in unitmx := gram_unit_inj Ib.
have S : forall i, is_true (leq (i.+1) (size es)) -> H (chan n (size b) b) *m chan n (size b) b *m column_of (size b) (seq.nth [::] z i)
     = H (chan n (size b) b) *m column_of n (seq.nth [::] e i).
  move=> i Hi; have Hi' : (i < List.length es)%coq_nat by apply/ltP.
  have := noise_mx Lb Pb Lb Pb Le Pe Hi' (Un i Hi'); rewrite mulmxBr => /eqP; rewrite subr_eq0 => /eqP ->; by rewrite mulmxA.
have [E1 [err [E2 E3]]] := second_stage Ee Le Ae Lb Ab Lz Tz U S.
case: (Ha) => [_ [_ [Pf _]]].
rewrite /impedance_coeffs He Hb /= Ee Eb Hr /= Pf /apply_prefilter List.repeat_length Nat.eqb_refl.
have -> : (List.length e =? 0)%nat = false by case: (e) (nonempty_of Le Ne).
rewrite /= E1 /rows_of fst_some snd_nil /= -[size z]/(List.length z) Lz -[List.length es]/(size es) E2 /=.
eexists; split; first by reflexivity.
split=> //; split; last by split=> //=; rewrite -Lb.
by rewrite /=; case: (ia_keep a); apply: map_repeat_nil => //; exact: no_times.
Qed.

(** with remote reference *)
Lemma remote_coeffs r rs : remote_name a = Some r -> t_get (ss_tags X) r = Ok rs -> recorded coeffs n rs -> separate coeffs n rs -> sees coeffs n rs bs ->
  related coeffs n es bs rs z -> exists x, impedance_coeffs listU a X coeffs w h = (Ok x, h) /\ exactly x (size rs) /\
    forall T, related coeffs n bs rs rs T -> ir_T listU x = Values T.
Proof.
move=> Hr Tr Rr Sr Vr [[Lz Tz] Un].
have [e [Ee [Le [Ae Pe]]]] := picked Re; have [b [Eb [Lb [Ab Pb]]]] := picked Rb; have [br [Er [Lr [Ar Pr]]]] := picked Rr.
have Ir := separate_mx Lr Pr Sr; have Is := sees_mx Lr Pr Lb Pb Vr.
have Nr : rs <> [::].
  move=> E; have := Vr (fun _ => RtoC 1) _ O; rewrite E => Hv.
  have : RtoC 1 = RtoC 0 by apply: Hv => [k Hk|]; [inversion Hk|apply/ltP; case: (bs) Nb].
  by case; lra.
have Nbr := nonempty_of Lr Nr; have Nbb := nonempty_of Lb Nb; have Cr := all_columns Ar Nbr.
set Br := chan n (size br) br in Ir Is; set B := chan n (size b) b in Is.
pose M := Tm Br B; pose T := [seq values (col j M) | j <- fintype.enum 'I_(size b)].
have LT : size T = size b by rewrite size_map size_enum_ord.
have NT (j : 'I_(size b)) : seq.nth [::] T j = values (col j M) by rewrite /T (nth_map j) ?size_enum_ord // nth_ord_enum.
have AT : all_of (size br) T.
  apply/List.Forall_forall => l /List.in_map_iff [j [<- _]]; by rewrite size_values.
have Ur := remote_unit Ir.
have St : forall i, is_true (leq (i.+1) (size b)) -> H Br *m Br *m column_of (size br) (seq.nth [::] T i) = H Br *m column_of n (seq.nth [::] b i).
  move=> i Hi; rewrite (NT (Ordinal Hi)) column_values colE /M /Tm mulmxA mulmxA mulmxV // mul1mx -mulmxA -colE.
  congr (_ *m _); apply/colP => t; by rewrite !mxE.
case: (Ha) => [Wa [Wr [Pf [Pr' Rp]]]].
have E1 := @plain_estimate a n b br T h Rp Hn Nbb Nbr Ab Ar LT AT Ur St.
set be := l_dot T br.
have Lbe : size be = size b by rewrite /be /l_dot size_map.
have Abe : all_of n be.
  apply/List.Forall_forall => l /List.in_map_iff [row [<- _]]; by rewrite size_map size_iota.
have Ebe : chan n (size b) be = Be Br B.
  apply/matrixP => t j; rewrite /be [LHS]mxE /entry /l_dot (nth_map [::]) ?LT // (nth_map O) ?size_iota ?Cr // nth_iota ?Cr // add0n.
  rewrite /Be mxE; apply: eq_bigr => k _; by rewrite NT nth_values !mxE mulrC.
have Ue : H (chan n (size be) be) *m chan n (size be) be \in unitmx by rewrite Lbe Ebe; exact: stage_unit.
have S : forall i, is_true (leq (i.+1) (size es)) -> H (chan n (size be) be) *m chan n (size be) be *m column_of (size be) (seq.nth [::] z i)
     = H (chan n (size be) be) *m column_of n (seq.nth [::] e i).
  move=> i Hi; have Hi' : (i < List.length es)%coq_nat by apply/ltP.
  by rewrite Lbe Ebe; apply: stage_solution => //; exact: (noise_mx Lr Pr Lb Pb Le Pe Hi' (Un i Hi')).
have Lbe' : size be = size bs by rewrite Lbe.
have [E2 [err [E3 E4]]] := second_stage Ee Le Ae Lbe' Abe Lz Tz Ue S.
have Wr' : remote_weights a = [:: None] by rewrite /remote_weights Wa; case: (ia_remote_weights a) Wr => // l [-> | ->].
have L0 (l : list (list C)) : l <> [::] -> (List.length l =? 0)%nat = false by case: l.
rewrite /impedance_coeffs He Hb /= Ee Eb Hr /= Tr /= Er /= Wr' Pf.
rewrite /remote_prefilter Pr' Pf /apply_prefilter List.repeat_length Nat.eqb_refl L0 //=.
rewrite E1 /rows_of fst_some' snd_nil /= -/be merged_nil.
have Ne' := nonempty_of Le Ne.
have -> : (match repeat ([::] : list Z) (List.length e) with [::] => repeat [::] (List.length e) | _ => repeat [::] (List.length e) end) = repeat [::] (List.length e) by case: (repeat _ _).
rewrite List.repeat_length Nat.eqb_refl (L0 e) //= E2 fst_some snd_nil /= -[size z]/(List.length z) Lz -[List.length es]/(size es) E3 /=.
eexists; split; first by reflexivity.
split; last first.
  move=> T' [[LT' AT'] UT']; rewrite /=; congr Values.
  have LT2 : size T' = size b by rewrite Lb; exact: LT'.
  apply: (@seq.eq_from_nth _ [::]); rewrite ?LT2 ?LT // => i Hi.
  have Hi' : (i < List.length bs)%coq_nat by apply/ltP; rewrite -[List.length bs]/(size bs) -Lb.
  have A' : all_of (size br) T' by rewrite Lr.
  have Sz' : size (seq.nth [::] T' i) = size br by apply: all_nth => //; rewrite LT2.
  have Sz : size (seq.nth [::] T i) = size br by apply: all_nth => //; rewrite LT.
  rewrite -(values_column Sz) -(values_column Sz'); congr values.
  have N' := noise_mx Lr Pr Lr Pr Lb Pb Hi' (UT' i Hi').
  have E' : H Br *m Br *m column_of (size br) (seq.nth [::] T' i) = H Br *m column_of n (seq.nth [::] b i).
    by move: N'; rewrite mulmxBr mulmxA => /eqP; rewrite subr_eq0 => /eqP ->.
  have : H Br *m Br *m column_of (size br) (seq.nth [::] T i) = H Br *m Br *m column_of (size br) (seq.nth [::] T' i) by rewrite E' St.
  by move/(congr1 (mulmx (invmx (H Br *m Br)))); rewrite !mulKmx.
split=> //; split; first by rewrite /=; case: (ia_keep a); apply: map_repeat_nil => //; exact: no_times.
split=> //; rewrite /= /rows_shape -[List.length T]/(size T) LT Lb; congr pair.
case: (T) AT LT => [|t0 T'] AT LT; first by case: (b) Nbb LT.
by rewrite /= -Lr; inversion AT.
Qed.
End Coefficients.
