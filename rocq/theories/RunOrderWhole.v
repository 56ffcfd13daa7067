(** Complete estimates of runs recorded at other times. *)
From Coq Require Import Reals Lra.
From Coquelicot Require Import Complex.
From mathcomp Require Import all_ssreflect all_algebra.
From Verif Require Import CField.
From Verif Require Import Base BaseLemmas Arith TagsModel SyncModel SetModel SpecSet FourierModel MestModel SpecMest WeightModel RobustModel BiModel
  FullModel SpecFull PrefilterModel UtilsModel SpecUtils UtilsProofs UtilsRun WholeModel WholeRemote WholeReport SpecWhole
  RowOrderList SpecRunOrder RunOrderFourier RunOrderRows RunOrderLists RunOrderTimes.
Set Implicit Arguments.
Unset Strict Implicit.
Unset Printing Implicit Defensive.
Import GRing.Theory.
Local Open Scope ring_scope.

Definition result_ends (X X' : recordings) (r r' : res result) : Prop :=
  match r, r' with Ok r, Ok r' => same_estimate X X' r r' | Err x, Err x' => x' = x | _, _ => False end.

Section Order.
Variables (n : nat) (p : list nat).
Hypothesis (P : Permutation p (List.seq 0 n)).
Notation tk := (take_at (RtoC 0) p).
Notation tks := (tks p).

Definition ends (r r' : option (list C) * list Z) : Prop :=
  r'.1 = r.1 /\ same_rows p r.2 r'.2 /\ size r'.2 = size r.2 /\ SpecMest.legal n r.2 /\ SpecMest.legal n r'.2 /\
  StronglySorted Z.lt r.2 /\ StronglySorted Z.lt r'.2.

Lemma NoDup_p : List.NoDup p.
Proof. exact: Permutation_NoDup (Permutation_sym P) (List.seq_NoDup n 0). Qed.
Lemma all_len ll : all_of n ll -> List.Forall (fun c : list C => List.length c = n) ll.
Proof. by []. Qed.

Lemma est_moved (a : arguments) outs ins ws iv iv' st st' : outs <> [::] -> ins <> [::] -> all_of n outs -> all_of n ins -> library ws ->
  List.Forall2 (same_rows p) iv iv' -> List.length iv = List.length outs -> List.Forall (SpecMest.legal n) iv -> List.Forall (SpecMest.legal n) iv' ->
  match fst (estimate listU a outs ins ws iv st), fst (estimate listU a (tks outs) (tks ins) ws iv' st') with
  | Ok l, Ok l' => List.length l = List.length outs /\ List.Forall2 ends l l'
  | Err x, Err x' => x' = x
  | _, _ => False
  end.
Proof.
move=> No Ni Ao Ai [wl [-> Lw]] F L G G'.
have R := @estimate_rejects listK listU _ a outs ins (weightings listW wl) iv st.
have R' := @estimate_rejects listK listU _ a (tks outs) (tks ins) (weightings listW wl) iv' st'.
move: R R'; rewrite /estimate; case: (ia_real_pb a) => // R R'.
have H := @list_order (size ins) (ia_opts a) p (l_rows ins) (l_rows (tks ins)) wl outs (tks outs) None (IvEach iv) (IvEach iv') st st'.
have Lr : List.length (l_rows ins) = n by rewrite -[LHS]/(size _) size_l_rows; exact: all_columns.
move: H; rewrite Lr => H.
have {}H := H P (rows_reordered P Ai Ni).
have {}H := H ((List.Forall_forall _ _).2 (@l_rows_In ins)).
have T2 : List.Forall2 (reordered p) outs (tks outs).
  clear -P Ao; elim: Ao => [|o ll Ho _ IH] /=; constructor=> //; exact: (tk_reordered P).
have {}H := H T2 Ao F Lw.
move: H R R'; case: (transfer_function (k := listK) _ outs _ _ _ _ st) => [[l|x] s]; case: (transfer_function (k := listK) _ (tks outs) _ _ _ _ st') => [[l'|x'] s'] //= H R R'.
have [L1 S1] := R l s n erefl Ao No L G.
have No' : tks outs <> [::] by case: (outs) No.
have L' : List.length iv' = List.length (tks outs) by rewrite List.map_length -L; elim: F => //= *; congr S.
have [L2 S2] := R' l' s' n erefl (all_tks P outs) No' L' G'.
split=> //.
have S1' x : List.In x l -> StronglySorted Z.lt x.2 /\ SpecMest.legal n x.2.
  by move=> Hx; have [i Hi] := List.In_nth_error _ _ Hx; have [iv0 [_ [A [B _]]]] := S1 i x Hi.
have S2' x : List.In x l' -> StronglySorted Z.lt x.2 /\ SpecMest.legal n x.2.
  by move=> Hx; have [i Hi] := List.In_nth_error _ _ Hx; have [iv0 [_ [A [B _]]]] := S2 i x Hi.
clear -H S1' S2' P; elim: H S1' S2' => [|x y l1 l2 [E SR] _ IH] S1 S2; constructor; last first.
  by apply: IH => z Hz; [apply: S1|apply: S2]; right.
have [A1 B1] := S1 x (or_introl erefl); have [A2 B2] := S2 y (or_introl erefl).
split=> //; split=> //; split; last by [].
apply: (@same_rows_length p) => //; [exact: NoDup_p|exact: sorted_NoDup|exact: sorted_NoDup].
Qed.

Lemma ends_fst l l' : List.Forall2 ends l l' -> List.map fst l' = List.map fst l.
Proof. by elim=> //= x y l1 l2 [-> _] _ ->. Qed.
Lemma ends_snd (Q : list Z -> list Z -> Prop) l l' : (forall x y, ends x y -> Q x.2 y.2) -> List.Forall2 ends l l' -> List.Forall2 Q (List.map snd l) (List.map snd l').
Proof. by move=> H; elim=> //= x y l1 l2 E _ IH; constructor=> //; exact: H. Qed.
Lemma ends_l l l' : List.Forall2 ends l l' -> List.Forall (SpecMest.legal n) (List.map snd l).
Proof. by elim=> //= x y l1 l2 [_ [_ [_ [H _]]]] _ IH; constructor. Qed.
Lemma ends_r l l' : List.Forall2 ends l l' -> List.Forall (SpecMest.legal n) (List.map snd l').
Proof. by elim=> //= x y l1 l2 [_ [_ [_ [_ [H _]]]]] _ IH; constructor. Qed.

Lemma nil_same : same_rows p [::] [::].
Proof. by split=> // z; split=> // -[j [i [_ [_ []]]]]. Qed.
Lemma repeat_same (R : list Z -> list Z -> Prop) m m' k : R m m' -> List.Forall2 R (List.repeat m k) (List.repeat m' k).
Proof. by move=> H; elim: k => //= k IH; constructor. Qed.
Lemma repeat_all (R : list Z -> Prop) m k : R m -> List.Forall R (List.repeat m k).
Proof. by move=> H; elim: k => //= k IH; constructor. Qed.

(** rejected windows to start from *)
Definition starts (nE : nat) (iv iv' : pidx) : Prop :=
  (iv = PNone /\ iv' = PNone) \/
  exists m m', iv = PEach (List.repeat m nE) /\ iv' = PEach (List.repeat m' nE) /\ same_rows p m m' /\ SpecMest.legal n m /\ SpecMest.legal n m'.
Lemma no_filter (outs ins : list (list C)) iv iv' : starts (List.length outs) iv iv' ->
  (exists x, apply_prefilter (k := listK) listU outs ins None iv = Err x /\ apply_prefilter (k := listK) listU (tks outs) (tks ins) None iv' = Err x) \/
  (exists l l', apply_prefilter (k := listK) listU outs ins None iv = Ok l /\ apply_prefilter (k := listK) listU (tks outs) (tks ins) None iv' = Ok l' /\
    outs <> [::] /\ List.length l = List.length outs /\ List.Forall2 (same_rows p) l l' /\ List.Forall (SpecMest.legal n) l /\ List.Forall (SpecMest.legal n) l').
Proof.
rewrite /apply_prefilter List.map_length => -[[-> ->]|[m [m' [-> [-> [SR [M M']]]]]]].
  rewrite List.repeat_length; case: outs => [|o outs]; first by left; exists IndexError.
  rewrite Nat.eqb_refl /=; right; exists (List.repeat [::] (S (List.length outs))), (List.repeat [::] (S (List.length outs))).
  split=> //; split=> //; split=> //; split; first exact: List.repeat_length.
  split; first by apply: repeat_same; exact: nil_same.
  by split; apply: repeat_all.
case: outs => [|o outs]; first by left; exists IndexError.
cbn [List.length List.repeat]; right; exists (List.repeat m (S (List.length outs))), (List.repeat m' (S (List.length outs))).
cbn [List.length List.repeat]; rewrite !List.repeat_length Nat.eqb_refl /=.
split=> //; split=> //; split=> //; split=> //.
split; first exact: (@repeat_same _ m m' (S (List.length outs))).
by split; apply: (@repeat_all _ _ (S (List.length outs))).
Qed.

Variable (a : arguments).
Hypotheses (Wa : library (ia_weights a)) (Wr : match ia_remote_weights a with None => True | Some l => library l end).
Hypotheses (Pa : ia_prefilter a = None) (Pr : ia_remote_prefilter a = None).

Lemma remote_library : library (remote_weights a).
Proof. by rewrite /remote_weights; case: (ia_remote_weights a) Wr => [[|w ws]|]. Qed.

Definition first_ends (nE : nat) (r r' : res (option (option (list (list C)) * list (list C) * pidx))) : Prop :=
  match r, r' with
  | Ok None, Ok None => True
  | Ok (Some (T, be, iv)), Ok (Some (T', be', iv')) => T' = T /\ be' = tks be /\ all_of n be /\ be <> [::] /\ starts nE iv iv'
  | Err x, Err x' => x' = x
  | _, _ => False
  end.

Lemma mapM_size (T : Type) (x : exn) (l : list (option T)) r : mapM (of_option x) l = Ok r -> List.length r = List.length l.
Proof. exact: mapM_length. Qed.

Lemma stage1_moved b br nE st st' : b <> [::] -> all_of n b -> (match br with None => True | Some br => br <> [::] /\ all_of n br end) ->
  first_ends nE (fst (stage1 listU a b br nE st)) (fst (stage1 listU a (tks b) (option_map tks br) nE st')).
Proof.
move=> Nb Ab; case: br => [br|] H; last by split=> //; split=> //; split=> //; split=> //; left.
case: H => Nr Ar; rewrite /stage1 /= /remote_prefilter Pa Pr.
have [|[x [-> ->]]|[iv [iv' [-> [-> [_ [L [F [G G']]]]]]]]] := @no_filter b br PNone PNone; first by left.
  by [].
have := @est_moved a b br (remote_weights a) iv iv' st st' Nb Nr Ab Ar remote_library F L G G'.
case: (estimate listU _ b br _ _ st) => [[l|x] s]; case: (estimate listU _ (tks b) (tks br) _ _ st') => [[l'|x'] s'] //=; last first.
  by move=> ->; case: (ia_silent a).
move=> [Ll E]; rewrite (ends_fst E) /rows_of; case ET: (mapM _ _) => [T|x] //=.
split=> //; split; first exact: (dot_tks P).
split; first exact: dot_all.
split.
  have := mapM_size ET; rewrite List.map_length Ll => LT; case: (T) LT => //=; by case: (b) Nb.
right; exists (merged (List.map snd l)), (merged (List.map snd l')); split=> //; split=> //.
split; first by apply: merged_same; apply: ends_snd E => x y [_ [H _]].
by split; apply: merged_legal; [exact: ends_l E|exact: ends_r E].
Qed.

Lemma pick_moved coeffs idx : all_of n coeffs ->
  mapM (fun i => nth_res (tks coeffs) i) idx = bind (mapM (fun i => nth_res coeffs i) idx) (fun l => Ok (tks l)) /\
  forall l, mapM (fun i => nth_res coeffs i) idx = Ok l -> all_of n l.
Proof.
move=> A; elim: idx => [|i idx [IH1 IH2]]; first by split=> // l [<-]; constructor.
have E1 : nth_res (tks coeffs) i = bind (nth_res coeffs i) (fun l => Ok (tk l)).
  by rewrite /nth_res /tks List.nth_error_map; case: (nth_error coeffs i).
have A1 x : nth_res coeffs i = Ok x -> size x = n.
  rewrite /nth_res; case E: (nth_error coeffs i) => [y|] //= [<-].
  by move/List.Forall_forall: A; apply; exact: List.nth_error_In E.
cbn [mapM]; rewrite E1 IH1; case: (nth_res coeffs i) A1 => [x|y] //= A1.
case: (mapM _ idx) IH2 => [l|y] //= IH2; split=> // _ [<-].
by constructor; [exact: A1|exact: IH2].
Qed.

Variables (X X' : recordings) (bs : list nat).
Hypotheses (Ht : ss_tags X' = ss_tags X) (Hb : t_get (ss_tags X) (ia_mag a) = Ok bs) (Nb : bs <> [::]).
Hypothesis (Hr : match remote_name a with None => True | Some r => exists c cs, t_get (ss_tags X) r = Ok (c :: cs) end).

Definition chosen (coeffs : list (list C)) : res (list (list C) * list (list C) * option (list (list C))) :=
  let pick t := bind (t_get (ss_tags X) t) (fun idx => mapM (fun i => nth_res coeffs i) idx) in
  bind (pick (ia_elec a)) (fun e => bind (pick (ia_mag a)) (fun b =>
  bind (match remote_name a with None => Ok None | Some r => bind (pick r) (fun x => Ok (Some x)) end) (fun br => Ok (e, b, br)))).
Lemma chosen_moved coeffs : all_of n coeffs ->
  (exists x, chosen coeffs = Err x /\ chosen (tks coeffs) = Err x) \/
  (exists e b br, chosen coeffs = Ok (e, b, br) /\ chosen (tks coeffs) = Ok (tks e, tks b, option_map tks br) /\ all_of n e /\ all_of n b /\ b <> [::] /\
    match br with None => True | Some br => br <> [::] /\ all_of n br end).
Proof.
move=> A; rewrite /chosen Hb.
case: (t_get _ (ia_elec a)) => [es|x]; cbn [bind]; last by left; exists x.
have [-> Ae] := pick_moved es A; have [-> Ab] := pick_moved bs A.
case E1: (mapM (fun i => nth_res coeffs i) es) Ae => [e|x] Ae; cbn [bind]; last by left; exists x.
case E2: (mapM (fun i => nth_res coeffs i) bs) Ab => [b|x] Ab; cbn [bind]; last by left; exists x.
have Nb1 : b <> [::] by move/mapM_length: E2; case: (b) => //; case: (bs) Nb.
case: (remote_name a) Hr => [r [i [js ->]]|_]; last by right; exists e, b, None; do 3!(split=> //); [exact: Ae|split=> //; exact: Ab].
cbn [bind]; have [-> Ar] := pick_moved (i :: js) A.
case E: (mapM (fun i => nth_res coeffs i) (i :: js)) Ar => [br|x] Ar; cbn [bind]; last by left; exists x.
right; exists e, b, (Some br); do 2!(split=> //); split; [exact: Ae|split; [exact: Ab|split=> //]].
by split; [move/mapM_length: E; case: (br)|exact: Ar].
Qed.

Lemma coeffs_moved coeffs w w' st st' : all_of n coeffs -> matched X X' w w' n p ->
  result_ends X X' (fst (impedance_coeffs listU a X coeffs w st)) (fst (impedance_coeffs listU a X' (tks coeffs) w' st')).
Proof.
move=> A Mw; rewrite /impedance_coeffs Ht; cbv zeta.
have := chosen_moved A; rewrite /chosen; cbv zeta.
move=> [[x [-> ->]]|[e [b [br [-> [-> [Ae [Ab [Nb1 Hbr]]]]]]]]]; first by [].
have -> : List.length (tks e) = List.length e by exact: List.map_length.
have -> : List.length (tks b) = List.length b by exact: List.map_length.
have -> : (match option_map tks br with Some l => List.length l | None => 0%nat end) = (match br with Some l => List.length l | None => 0%nat end).
  by case: (br) => //= l; exact: List.map_length.
have := @stage1_moved b br (List.length e) st st' Nb1 Ab Hbr.
case: (stage1 listU _ b br _ st) => [s1 t]; case: (stage1 listU _ (tks b) _ _ st') => [s1' t'] /=.
case: s1 => [[[[T be] iv]|]|x]; case: s1' => [[[[T' be'] iv']|]|x'] //=.
2: by move=> _; do 3!(split=> //); constructor.
move=> [-> [-> [Abe [Nbe S]]]]; rewrite Pa.
have [[x [-> ->]]|[l0 [l0' [-> [-> [Ne [L [F [G G']]]]]]]]] := @no_filter e be iv iv' S; first by [].
have := @est_moved a e be (ia_weights a) l0 l0' t t' Ne Nbe Ae Abe Wa F L G G'.
case: (estimate listU _ e be _ _ t) => [[l|x] s]; case: (estimate listU _ (tks e) (tks be) _ _ t') => [[l'|x'] s'] //=; last first.
  by move=> ->; case: (ia_silent a) => //; do 3!(split=> //); constructor.
move=> [Ll E]; rewrite (ends_fst E) /rows_of; case: (mapM _ _) => [z|x] //=.
have -> : l_error (tks e) (tks be) z (List.map snd l') = l_error e be z (List.map snd l).
  by apply: (error_tks P) => //; apply: ends_snd E => x y [_ [_ [H _]]].
case: (l_error _ _ _ _) => [err|x] //=; do 3!(split=> //).
case: (ia_keep a).
  elim: E => [|x y l1 l2 [_ [SR [_ [L1 [L2 [S1 S2]]]]]] _ IH] /=; constructor=> //.
  exact: (@times_moved X X' w w' n p _ _ P Mw).
elim: E => [|x y l1 l2 _ _ IH] /=; constructor=> //; exists [::]; split; [by constructor|split; [by []|by constructor]].
Qed.
End Order.

Section Whole.
Variables (fo : fopts) (a : arguments) (X X' : recordings).
Hypotheses (Wa : library (ia_weights a)) (Wr : match ia_remote_weights a with None => True | Some l => library l end).
Hypotheses (Pa : ia_prefilter a = None) (Pr : ia_remote_prefilter a = None).
Hypotheses (WX : wf_set X) (M : runs_moved X X').

Lemma tag_channels t l : t_get (ss_tags X) t = Ok l -> l <> [::].
Proof.
rewrite /t_get; case E: (dget _ _) => [m|] //= [<-]; apply: (SpecTags.tv_nonempty _ (ws_tags _ WX) t); exact: dget_In E.
Qed.

Lemma one_moved f st st' :
  result_ends X X' (fst (impedance_one listU (coefficients fo) a X f st)) (fst (impedance_one listU (coefficients fo) a X' f st')).
Proof.
have Ht := proj1 M; rewrite /impedance_one Ht.
case: (t_get _ (ia_elec a)) => [es|x]; cbn [bind]; last by [].
have [Hb|[x ->]] : (exists bs, t_get (ss_tags X) (ia_mag a) = Ok bs) \/ (exists x, t_get (ss_tags X) (ia_mag a) = Err x).
  by case: (t_get _ _) => [bs|x]; [left; exists bs|right; exists x].
2: by [].
move: Hb => [bs Hb]; rewrite Hb; have Nb := tag_channels Hb; cbn [bind].
case E: (match remote_name a with None => _ | Some r => _ end) => [rs|x]; cbn [bind]; last by [].
have Hr : match remote_name a return Prop with None => True | Some r => exists c cs, t_get (ss_tags X) r = Ok (c :: cs) end.
  by move: E; case: (remote_name a) => // r E; have := tag_channels E; move: E; case: (rs) => // c cs E _; exists c, cs.
have [[cs [w [cs' [w' [n [p [-> [-> [P [A [-> Mw]]]]]]]]]]]|[x [x' [-> ->]]]] := @coefficients_moved fo X X' f WX M; last by do 3!(split=> //); constructor.
exact: (@coeffs_moved n p P a Wa Wr Pa Pr X X' bs Ht Hb Nb Hr cs w w' st st' A Mw).
Qed.

Definition results_end (r r' : res (list result)) : Prop :=
  match r, r' with Ok r, Ok r' => List.Forall2 (same_estimate X X') r r' | Err x, Err x' => x' = x | _, _ => False end.
Lemma results_moved l st st' :
  results_end (fst (impedance_results listU (coefficients fo) a X l st)) (fst (impedance_results listU (coefficients fo) a X' l st')).
Proof.
elim: l st st' => [|f l IH] st st' /=; first by constructor.
have := one_moved f st st'.
case: (impedance_one listU _ _ X f st) => [[r|x] s]; case: (impedance_one listU _ _ X' f st') => [[r'|x'] s'] //= E.
have := IH s s'.
case: (impedance_results listU _ _ X l s) => [[q|x] t]; case: (impedance_results listU _ _ X' l s') => [[q'|x'] t'] //= F.
by constructor.
Qed.

Theorem whole_moved l : match whole_impedance fo a X l, whole_impedance fo a X' l with
  | Ok out, Ok out' => List.Forall2 (same_estimate X X') out out'
  | Err x, Err x' => x' = x
  | _, _ => False
  end.
Proof.
rewrite /whole_impedance /impedance; have := results_moved l (fresh listW) (fresh listW).
case: (impedance_results listU _ _ X l _) => [[q|x] t]; case: (impedance_results listU _ _ X' l _) => [[q'|x'] t'] //= F.
have E (S : Type) (h : result -> S) : (forall r r', same_estimate X X' r r' -> h r' = h r) -> List.map h q' = List.map h q.
  by move=> H; elim: F => //= x y l1 l2 Hx _ ->; rewrite (H _ _ Hx).
rewrite (E _ (fun r => arr_shape (rows_shape listU) (ir_z listU r))); last by move=> r r' [-> _].
case: (stack _) => //= _.
rewrite (E _ (fun r => arr_shape (u_eshape listK listU) (ir_err listU r))); last by move=> r r' [_ [-> _]].
case: (stack _) => //= _.
rewrite (E _ (fun r => arr_shape (rows_shape listU) (ir_T listU r))); last by move=> r r' [_ [_ [-> _]]].
by case: (stack _).
Qed.
End Whole.
