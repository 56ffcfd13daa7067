(** The complete estimate keeps shapes, has errors, and reports them as SpecReport.v
    says. *)
From Coq Require Import Reals Lra Lia.
From Coquelicot Require Import Complex.
From mathcomp Require Import all_ssreflect all_algebra.
From Verif Require Import WlseModel WlseProofs CField RemoteMx.
From Verif Require Import Base BaseLemmas Arith OrdLaws TagsModel SyncModel SetModel SpecSet SetProofs FourierModel FourierSet MestModel SpecMest WeightModel RobustModel BiModel
  FullModel FullProofs PrefilterModel UtilsModel SpecUtils UtilsProofs UtilsRun SpecMass StageProofs StackProofs WholeModel WholeScale WholeUnits SpecRemote SpecReport WholeImpedance WholeRemote.
Set Implicit Arguments.
Unset Strict Implicit.
Unset Printing Implicit Defensive.
Import GRing.Theory.
Local Open Scope ring_scope.
Local Notation H := (herm cjC).

(** comparisons of real numbers *)
Definition RA_ord : OrdLaws RA.
Proof.
refine {| ok := fun _ : num RA => True |} => //=; rewrite /Rleb /Rltb.
- by move=> x y; case: Rlt_dec => // h _; case: Rle_dec => //; lra.
- by move=> x y z; case: Rle_dec => // h1 _; case: Rle_dec => // h2 _; case: Rle_dec => //; lra.
- by move=> x y _ _; case: (Rle_lt_dec x y) => h; [left|right]; case: Rle_dec => //; lra.
- by move=> x y _ _; case: Rlt_dec => h1; case: Rle_dec => h2 //=; lra.
Defined.

(** ** Shapes *)
Lemma l_wlse_size e b w z : l_wlse e b w = Ok z -> size z = width b.
Proof. by rewrite /l_wlse; case: (full_wlse _ _ _) => //= v [<-]; rewrite size_values. Qed.
Lemma width_of b n : b <> [::] -> (forall row, List.In row b -> size row = n) -> width b = n.
Proof. by case: b => // row b _ Hb; rewrite /width /=; apply: Hb; left. Qed.
Lemma l_rows_In inputs row : List.In row (l_rows inputs) -> size row = size inputs.
Proof. by rewrite /l_rows => /List.in_map_iff [t [<- _]]; rewrite size_map. Qed.

Lemma list_shapes : keep_shapes listU size.
Proof.
split; first by move=> e b w z E Nb n Hn; rewrite /= (l_wlse_size E); exact: width_of.
split; first by move=> inputs row Hr; exact: l_rows_In.
split; first by move=> T br; rewrite /= /l_dot -[List.length _]/(size _) size_map.
move=> e be z iv x; rewrite /= /l_error; case: ifP => // _ [<-] Ne Lz Li.
have Lz' : size z = size e := Lz; have Li' : size iv = size e := Li.
congr pair; first by rewrite size_map !size_zip Lz' Li' !minnn.
by case: e Ne Lz' Li' {Lz Li} => // e0 e _; case: z => // z0 z _; case: iv => // i0 iv _ /=; rewrite size_map size_enum_ord.
Qed.

(** ** Errors exist *)
Lemma row_product p inputs (v : 'cV[C]_p) row : size inputs = p -> List.In row (l_rows inputs) ->
  chan (columns_of inputs) p inputs *m v = 0 -> row_of p row *m v = 0.
Proof.
move=> L /List.in_map_iff [t [<- Ht]] E.
have Hlt : is_true (leq (S t) (columns_of inputs)).
  by apply/ltP; case: (proj1 (List.in_seq (columns_of inputs) 0 t) Ht).
apply/matrixP => i j; rewrite [RHS]mxE; transitivity ((chan (columns_of inputs) p inputs *m v) (Ordinal Hlt) j); last by rewrite E mxE.
rewrite mxE [RHS]mxE; apply: eq_bigr => k _; congr (_ * _); rewrite !mxE (nth_map [::]) ?L //.
Qed.

Lemma solved_free be z : solved (k := listK) (l_rows be) z -> forall v : 'cV[C]_(size be), chan (columns_of be) (size be) be *m v = 0 -> v = 0.
Proof.
move=> [e' [b' [w [Hi [Nb /= E]]]]] v Ev.
have W : width b' = size be by apply: width_of => // row Hr; exact: l_rows_In (Hi _ Hr).
move: E; rewrite /l_wlse W /full_wlse; case: (weights_c w) => //= w'.
case E : (wlse_rows _ _ _ _) => [u|] // _; move: E => /wlse_iff [U _].
have R0 : rows (size e') (mx_rows (size be) b') *m v = 0.
  apply/matrixP => i j; rewrite mxE [RHS]mxE.
  have -> : \sum_k rows (size e') (mx_rows (size be) b') i k * v k j = (seq.nth 0 (mx_rows (size be) b') i *m v) 0 j.
    by rewrite [RHS]mxE; apply: eq_bigr => k _; rewrite !mxE.
  case: (leqP (size b') i) => Hs; first by rewrite seq.nth_default ?size_map // mul0mx mxE.
  rewrite /mx_rows (nth_map [::]) // (@row_product _ be) ?mxE //; apply: (Hi); exact: List.nth_error_In (nth_error_seq [::] Hs).
have N0 : normal cjC (rows (size e') (mx_rows (size be) b')) (weights (size e') w') *m v = 0.
  have D0 := dotdiag_mul (weights (size e') w') (0 : 'M_(size e', 1)) (0 : 'M[C]_1); rewrite mul0mx mulmx0 in D0.
  by rewrite /normal -mulmxA -dotdiag_mul R0 D0 mulmx0.
by rewrite -[v]mul1mx -(mulVmx U) -mulmxA N0 mulmx0.
Qed.

Lemma gram_chan be : l_gram be = (H (chan (columns_of be) (size be) be) *m chan (columns_of be) (size be) be)^T.
Proof. by apply/matrixP => i j; rewrite !mxE; apply: eq_bigr => t _; rewrite !mxE mulrC. Qed.

Lemma list_errors : errors_exist listU.
Proof.
move=> e be z iv Ne Lz Li F; rewrite /= /l_error.
case: z Lz F => [|z0 z] Lz F; first by case: e Ne Lz {Li}.
have S0 : solved (k := listK) (l_rows be) z0 by inversion F.
by rewrite gram_chan unitmx_tr (gram_unit_inj (solved_free S0)); eexists.
Qed.

(** ** The reported errors *)
Lemma nth_seq (T : Type) (d : T) l i : List.nth i l d = seq.nth d l i.
Proof. by elim: l i => [|x l IH] [|i] //=. Qed.

Definition g_of p (G : 'M[C]_p) (i k : nat) : C :=
  match insub i : option 'I_p, insub k : option 'I_p with Some i, Some k => invmx G i k | _, _ => 0 end.
Lemma g_ofE p (G : 'M[C]_p) (i k : 'I_p) : g_of G i k = invmx G i k.
Proof. by rewrite /g_of !valK. Qed.

Lemma error_entry e be z ivs err i j (Hj : is_true (leq (S j) (size be))) : l_error e be z ivs = Ok err -> size z = size e -> size ivs = size e -> is_true (leq (S i) (size e)) ->
  List.nth_error (List.nth i err [::]) j = Some (xmul (xdiv (xdiv (Fin (l_nres be (seq.nth [::] e i) (seq.nth [::] z i)))
    (Fin (Rdiv (sqrt (Rminus (INR (columns_of e)) (INR (size be)))) (INR (columns_of e)))))
    (Fin (Rminus (INR (columns_of e)) (INR (size (seq.nth [::] ivs i))))))
    (Fin (sqrt (Cmod (g_of (l_gram be) j j))))).
Proof.
rewrite /l_error; case: ifP => // _ [<-] Lz Li Hi.
rewrite nth_seq (nth_map ([::], [::], [::])) ?size_zip ?Lz ?Li ?minnn // (nth_error_seq (Fin R0)); last by rewrite size_map size_enum_ord.
rewrite (nth_map (Ordinal Hj)) ?size_enum_ord //.
have -> : seq.nth (Ordinal Hj) (fintype.enum 'I_(size be)) j = Ordinal Hj by exact: (nth_ord_enum _ (Ordinal Hj)).
by rewrite nth_zip ?size_zip ?Lz ?Li ?minnn // nth_zip ?Lz // -(g_ofE _ (Ordinal Hj)).
Qed.

Lemma finite_entry nres n p k s : (p < n)%coq_nat -> (k < n)%coq_nat ->
  xmul (xdiv (xdiv (Fin nres) (Fin (Rdiv (sqrt (Rminus (INR n) (INR p))) (INR n)))) (Fin (Rminus (INR n) (INR k)))) (Fin s)
  = Fin (Rmult (Rmult (Rdiv nres (sqrt (INR (n - p)%coq_nat))) (Rdiv (INR n) (INR (n - k)%coq_nat))) s).
Proof.
move=> Hp Hk; rewrite !minus_INR; [|lia|lia].
have Rp : Rlt (INR p) (INR n) by apply: lt_INR.
have Rk : Rlt (INR k) (INR n) by apply: lt_INR.
have R0n : Rle 0 (INR p) by apply: pos_INR.
have Sp : Rlt 0 (sqrt (Rminus (INR n) (INR p))) by apply: sqrt_lt_R0; lra.
rewrite /=; case: Req_EM_T => E.
  exfalso; have : Rlt 0 (Rdiv (sqrt (Rminus (INR n) (INR p))) (INR n)) by apply: Rdiv_lt_0_compat; lra.
  lra.
rewrite /=; case: Req_EM_T => E'; first by exfalso; lra.
by rewrite /=; congr Fin; field; repeat split; lra.
Qed.

Lemma infinite_not x : ~ finite (infinite x).
Proof. by rewrite /infinite; case: Rlt_dec => [h [r]|h] //; case: Rlt_dec => [h' [r]|h' [r]]. Qed.
Lemma xdiv_not x y : ~ finite x -> ~ finite (xdiv x (Fin y)).
Proof.
case: x => [x|||] H /=; [by case: H; exists x|case: Req_EM_T => _; [by case|exact: (@infinite_not _)]|case: Req_EM_T => _; [by case|exact: (@infinite_not _)]|by case].
Qed.
Lemma xmul_not x y : ~ finite x -> ~ finite (xmul x (Fin y)).
Proof. by case: x => [x|||] H /=; [case: H; exists x|exact: infinite_not|exact: infinite_not|case]. Qed.
Lemma not_finite_entry nres n p k s : n = p \/ n = k ->
  ~ finite (xmul (xdiv (xdiv (Fin nres) (Fin (Rdiv (sqrt (Rminus (INR n) (INR p))) (INR n)))) (Fin (Rminus (INR n) (INR k)))) (Fin s)).
Proof.
move=> [<-|<-]; apply: xmul_not; rewrite (Rminus_diag_eq (INR n) (INR n)) //.
  apply: xdiv_not; rewrite sqrt_0 /Rdiv Rmult_0_l [xdiv _ _]/=; case: Req_EM_T => // _; exact: infinite_not.
case: (xdiv (Fin nres) _) => [y|||] /=; last by case.
- case: Req_EM_T => h; [exact: infinite_not|by case: h].
- case: Req_EM_T => h; [by case|by case: h].
- case: Req_EM_T => h; [by case|by case: h].
Qed.
Lemma sorted_length l n : StronglySorted Z.lt l -> (forall j, List.In j l -> (0 <= j < Z.of_nat n)%Z) -> (List.length l <= n)%coq_nat.
Proof.
move=> S B; rewrite -(List.seq_length n 0) -(List.map_length Z.to_nat); apply: List.NoDup_incl_length; last first.
  by move=> i /List.in_map_iff [j [<- /B Hj]]; apply/List.in_seq; lia.
elim: l S B => [|x l IH] S B; first by constructor.
inversion S as [|? ? S' F]; subst; constructor; last by apply: IH => // j Hj; apply: B; right.
move=> /List.in_map_iff [j [E Hj]]; have := proj1 (List.Forall_forall _ _) F _ Hj.
have := B x (or_introl erefl); have := B j (or_intror Hj); lia.
Qed.
Lemma gram_size be : l_gram be \in unitmx -> is_true (leq (size be) (columns_of be)).
Proof.
rewrite gram_chan unitmx_tr => U; rewrite -(mxrank_unit U).
exact: leq_trans (mxrankM_maxr _ _) (rank_leq_row _).
Qed.

Lemma rsum_big n f : rsum n f = \big[Rplus/R0]_(t < n) f t.
Proof.
rewrite /rsum; have E : forall s, fold_right Rplus R0 (List.map f (List.seq s n)) = \big[Rplus/R0]_(t < n) f (s + t)%nat.
  elim: n => [|n IH] s /=; first by rewrite big_ord0.
  rewrite big_ord_recl addn0 IH; congr (Rplus _ _); apply: eq_bigr => i _; by rewrite /= /bump /= addnA addn1.
by rewrite E.
Qed.

Section Entries.
Variables (coeffs : list (list C)) (n : nat) (es bs rs : list nat) (z : list (list C)) (T : option (list (list C))) (e be : list (list C)).
Hypotheses (Le : size e = size es) (Lb : size be = size bs) (Ae : all_of n e) (Ne : e <> [::]) (Ab : all_of n be) (Nb : be <> [::]).
Hypotheses (Pe : forall i t, (i < List.length es)%coq_nat -> entry e i t = channel coeffs es i t)
  (Pb : forall j (t : 'I_n), (j < List.length bs)%coq_nat -> entry be j t = input coeffs bs rs T j t).

Lemma misfit_nres i : is_true (leq (S i) (size e)) -> l_nres be (seq.nth [::] e i) (seq.nth [::] z i) = total_misfit coeffs n es bs rs z T i.
Proof.
move=> Hi; rewrite /l_nres /total_misfit rsum_big (all_nth Ae Hi); congr sqrt; apply: eq_bigr => t _.
have Hi' : (i < List.length es)%coq_nat by apply/ltP; rewrite -[List.length es]/(size es) -Le.
have -> : misfit coeffs es bs rs z T i t = seq.nth 0 (seq.nth [::] e i) t - \sum_(j < size be) seq.nth 0 (seq.nth [::] z i) j * entry be j t.
  rewrite /misfit -(Pe _ Hi') csum_big -[List.length bs]/(size bs) -Lb.
  have -> : \sum_(t0 < size be) Cmult (List.nth t0 (List.nth i z [::]) (RtoC 0)) (input coeffs bs rs T t0 t) = \sum_(j < size be) seq.nth 0 (seq.nth [::] z i) j * entry be j t; last by [].
  apply: eq_bigr => j _.
  have Hj : (j < List.length bs)%coq_nat by apply/ltP; rewrite -[List.length bs]/(size bs) -Lb.
  by rewrite -(Pb t Hj) !nth_seq.
by rewrite /= Rmult_1_r.
Qed.

Lemma inverse_g : l_gram be \in unitmx -> inverse coeffs n bs rs T (g_of (l_gram be)).
Proof.
move=> U i j Hi Hj.
have Hi' : is_true (leq (S i) (size be)) by apply/ltP; rewrite Lb.
have Hj' : is_true (leq (S j) (size be)) by apply/ltP; rewrite Lb.
rewrite csum_big -[List.length bs]/(size bs) -Lb.
transitivity ((invmx (l_gram be) *m l_gram be) (Ordinal Hi') (Ordinal Hj')).
  rewrite mxE; apply: eq_bigr => k _; rewrite -g_ofE; congr (_ * _).
  have Hk : (k < List.length bs)%coq_nat by apply/ltP; rewrite -[List.length bs]/(size bs) -Lb.
  by rewrite /cross csum_big mxE (all_columns Ab Nb); apply: eq_bigr => t _; rewrite -(Pb t Hk) -(Pb t Hj).
rewrite mulVmx // mxE -val_eqE /=.
by case: (Nat.eqb_spec i j) => [->|D]; [rewrite eqxx|case: eqP].
Qed.
End Entries.

Lemma columns_all coeffs n idx ll : (forall c x, nth_error coeffs c = Some x -> size x = n) -> columns coeffs idx ll -> size ll = size idx /\ all_of n ll /\
  (forall i t, (i < List.length idx)%coq_nat -> entry ll i t = channel coeffs idx i t) /\ recorded coeffs n idx.
Proof.
move=> Hn; elim=> [|c line idx' ll' Hc _ [L [A [P R]]]].
  split=> //; split; first by constructor.
  by split=> [i t Hi|c []]; inversion Hi.
split; first by rewrite /= L.
split; first by constructor=> //; exact: Hn Hc.
split; last by move=> c' [<-|Hc']; [exists line; split=> //; exact: Hn Hc|exact: R].
move=> [|i] t Hi; last by rewrite /entry /=; apply: P; apply/Nat.succ_lt_mono.
by rewrite /entry /channel /at_window /= (List.nth_error_nth _ _ _ Hc) nth_seq.
Qed.

Theorem whole_errors fo a (kone : calibration) X l_freq out m f x z es bs rs :
  reach kone X -> ia_weights a <> [::] -> ia_keep a = true -> legal_prefilter (ia_prefilter a) -> legal_prefilter (ia_remote_prefilter a) ->
  t_get (ss_tags X) (ia_elec a) = Ok es -> t_get (ss_tags X) (ia_mag a) = Ok bs ->
  (match remote_name a with None => rs = [::] | Some r => t_get (ss_tags X) r = Ok rs end) ->
  whole_impedance fo a X l_freq = Ok out -> nth_error l_freq m = Some f -> nth_error out m = Some x -> ir_z listU x = Values z ->
  exists coeffs w n err T g, coefficients fo X f = Ok (coeffs, w) /\ recorded coeffs n (es ++ bs ++ rs) /\
    ir_err listU x = Values err /\ ir_T listU x = (match T with Some T => Values T | None => NaNs (List.length bs) 0 end) /\ (T = None <-> remote_name a = None) /\
    inverse coeffs n bs rs T g /\ List.length (ir_ivt listU x) = List.length es /\
    forall i j ts, (i < List.length es)%coq_nat -> (j < List.length bs)%coq_nat -> nth_error (ir_ivt listU x) i = Some ts ->
      (List.length bs <= n)%coq_nat /\ (List.length ts <= n)%coq_nat /\
      exists v, nth_error (List.nth i err [::]) j = Some v /\
        ((List.length bs < n)%coq_nat -> (List.length ts < n)%coq_nat -> v = Fin (error_of coeffs n es bs rs z T g (List.length ts) i j)) /\
        (n = List.length bs \/ n = List.length ts -> ~ finite v).
Proof.
move=> Hr Hw Hk Lp Lrp He Hb Hrs Ho Hf Hx Hz.
have W := reach_wf kone RA_ord X Hr.
case E : (impedance listU (coefficients fo) a X l_freq (fresh listW)) => [r h].
have Er : r = Ok out by move: Ho; rewrite /whole_impedance E.
have [x' [Hx' [s [s' H1]]]] := Forall2_nth_error _ _ _ _ _ (impedance_each listU (coefficients fo) a X l_freq _ _ _ (eq_trans E (f_equal (fun r => (r, h)) Er))) Hf.
have Ex : x' = x by move: Hx'; rewrite Hx => -[].
subst x'; clear Hx'.
have := one_inv listU (coefficients fo) a X f s x s' es bs (size rs) He Hb _ H1.
have HN : (match remote_name a with None => size rs = 0%nat | Some rn => exists rs', t_get (ss_tags X) rn = Ok rs' /\ size rs = List.length rs' end : Prop).
  by case: (remote_name a) Hrs => [rn|] Hrs; [exists rs|rewrite Hrs].
move=> /(_ HN).
case Ec : (coefficients fo X f) => [[coeffs w]|y]; last by case=> Ey _; move: Hz; rewrite Ey.
case: w Ec => [[Nws Ls] shs] Ec Hc.
have [_ [N1 [N2 [N3 Hl]]]] := set_fourier_spec _ _ _ _ _ X f _ _ _ coeffs Nws Ls shs W Ec.
set n := list_sum Nws in Hl.
have Hn : forall c y, nth_error coeffs c = Some y -> size y = n by move=> c y Hy; case: (Hl c y Hy).
have [e [b [br [T [be [iv1 [st1 [iv2 [l [Hu [F [Hp [He2 [Hlz [Hivt [Hin [[err [Herr Hlerr]] [HT _]]]]]]]]]]]]]]]]]] := coeffs_rejects listU a X coeffs _ s x s' z n Hw Hc Hz Lp Lrp Hn.
case: Hu => [[es' [He' Ce]] [[bs' [Hb' Cb]] HR]].
have Ees : es' = es by move: He'; rewrite He => -[].
have Ebs : bs' = bs by move: Hb'; rewrite Hb => -[].
subst es' bs'; clear He' Hb'.
have [Le [Ae [Pe Re]]] := columns_all Hn Ce; have [Lb [Ab [Pb Rb]]] := columns_all Hn Cb.
have Ne : e <> [::] by case: (apply_prefilter_spec _ _ _ _ _ _ Hp).
have Nbs : bs <> [::] := tag_sizes RA_ord kone X _ _ Hr Hb.
have Nb : b <> [::] by case: (b) Lb => //; case: (bs) Nbs.
have Ez : rows_of (k := listK) IndexError (List.map fst l) = Ok z.
  rewrite /rows_of mapM_map; apply/mapM_Forall2; apply: Forall2_impl Hlz => p y Hy; by rewrite /= Hy.
have [Lz [Li _]] := @estimate_solved listK listU (heap listW) a _ _ _ _ _ _ _ IndexError z Hw He2 Ez.
have Hlen : List.length (ir_ivt listU x) = List.length es by rewrite Hivt !List.map_length; move: Li; rewrite List.map_length => ->.
have U : l_gram be \in unitmx by move: Hlerr; rewrite /= /l_error; case: ifP.
have Ks i ts : nth_error (ir_ivt listU x) i = Some ts -> List.length ts = size (seq.nth [::] (List.map snd l) i) /\ (List.length ts <= n)%coq_nat.
  rewrite Hivt Hk List.nth_error_map; case Ei : (nth_error (List.map snd l) i) => [iv|] // [<-].
  rewrite (proj2 (seq_nth_error [::] Ei)).
  have [p [Ep Hpl]] := proj1 (List.in_map_iff _ _ _) (List.nth_error_In _ _ Ei).
  have [S1 S2] := Hin p Hpl; rewrite Ep in S1 S2.
  have Q := @run_windows_counts listK R calibration X Nws Ls shs N1 N2 N3.
  have [|G _] := @invalid_times_spec listK (@run_windows listK R calibration X (Nws, Ls, shs)) iv S1; first by rewrite Q.
  by rewrite [List.length _]G; split=> //; exact: sorted_length S1 S2.
have Main rem : size be = size bs -> all_of n be -> (forall j (t : 'I_n), (j < List.length bs)%coq_nat -> entry be j t = input coeffs bs rs rem j t) ->
    ir_T listU x = (match rem with Some T => Values T | None => NaNs (List.length bs) 0 end) -> (rem = None <-> remote_name a = None) -> recorded coeffs n rs ->
    exists coeffs0 w n0 err0 T0 g, Ok (coeffs, (Nws, Ls, shs)) = Ok (coeffs0, w) /\ recorded coeffs0 n0 (es ++ bs ++ rs) /\
    ir_err listU x = Values err0 /\ ir_T listU x = (match T0 with Some T => Values T | None => NaNs (List.length bs) 0 end) /\ (T0 = None <-> remote_name a = None) /\
    inverse coeffs0 n0 bs rs T0 g /\ List.length (ir_ivt listU x) = List.length es /\
    forall i j ts, (i < List.length es)%coq_nat -> (j < List.length bs)%coq_nat -> nth_error (ir_ivt listU x) i = Some ts ->
      (List.length bs <= n0)%coq_nat /\ (List.length ts <= n0)%coq_nat /\
      exists v, nth_error (List.nth i err0 [::]) j = Some v /\
        ((List.length bs < n0)%coq_nat -> (List.length ts < n0)%coq_nat -> v = Fin (error_of coeffs0 n0 es bs rs z T0 g (List.length ts) i j)) /\
        (n0 = List.length bs \/ n0 = List.length ts -> ~ finite v).
  move=> Lbe Abe Pbe ET Er0 Rr.
  have Nbe : be <> [::] by case: (be) Lbe => //; case: (bs) Nbs.
  exists coeffs, (Nws, Ls, shs), n, err, rem, (g_of (l_gram be)); split=> //; split.
    move=> c /List.in_app_iff [Hc'|/List.in_app_iff [Hc'|Hc']]; [exact: Re|exact: Rb|exact: Rr].
  split=> //; split=> //; split=> //; split; first exact: (inverse_g Lbe Abe Nbe Pbe U).
  split=> // i j ts Hi Hj Hts.
  have Hi' : is_true (leq (S i) (size e)) by apply/ltP; rewrite Le.
  have Hj' : is_true (leq (S j) (size be)) by apply/ltP; rewrite Lbe.
  have [Ks1 Ks2] := Ks _ _ Hts.
  split; first by apply/leP; have := gram_size U; rewrite (all_columns Abe Nbe) Lbe.
  split=> //; eexists; split; first exact: (error_entry Hj' Hlerr Lz Li Hi').
  rewrite (misfit_nres z Le Lbe Ae Pe Pbe Hi') (all_columns Ae Ne) -Ks1.
  move: (g_of (l_gram be)) => gg; rewrite Lbe; split; first by move=> Hp0 Hk0; rewrite (finite_entry _ _ Hp0 Hk0).
  by move=> Hn0; apply: not_finite_entry.
case: br F HR => [br|] F HR.
- have [rn [Hrn [Hrs' Cr]]] : exists rn, remote_name a = Some rn /\ t_get (ss_tags X) rn = Ok rs /\ columns coeffs rs br.
    case: (remote_name a) HR Hrs => [rn|] // [rs' [Hrs' Cr]] Hrs; exists rn; split=> //.
    have Ers : rs' = rs by move: Hrs'; rewrite Hrs => -[].
    by subst rs'.
  have [Lr [Ar [Pr Rr]]] := columns_all Hn Cr.
  case: F => [iv0 [l1 [T' [_ [F2 [F3 [ETT [Ebe _]]]]]]]].
  have [LT _] := @estimate_solved listK listU (heap listW) a _ _ _ _ _ _ _ ValueError T' (remote_weights_ne a Hw) F2 F3.
  have Nrs : rs <> [::] := tag_sizes RA_ord kone X _ _ Hr Hrs'.
  have Nbr : br <> [::] by case: (br) Lr => //; case: (rs) Nrs.
  apply: (Main (Some T')) => //.
  + by rewrite Ebe /= /l_dot size_map -[size T']/(List.length T') LT.
  + rewrite Ebe; apply/List.Forall_forall => y /List.in_map_iff [row [<- _]]; by rewrite size_map size_iota (all_columns Ar Nbr).
  + move=> j t Hj; rewrite Ebe /= /entry /l_dot (nth_map [::]); last by apply/ltP; rewrite -[size T']/(List.length T') LT -[List.length b]/(size b) Lb.
    rewrite (nth_map 0%nat) ?size_iota ?(all_columns Ar Nbr) // nth_iota ?(all_columns Ar Nbr) // add0n.
    rewrite /combination csum_big -[List.length rs]/(size rs) -Lr; apply: eq_bigr => k _.
    have Hkk : (k < List.length rs)%coq_nat by apply/ltP; rewrite -[List.length rs]/(size rs) -Lr.
    by rewrite (Pr _ _ Hkk) !nth_seq.
  + by rewrite HT ETT.
  + by rewrite Hrn.
- have [Hrn Ers] : remote_name a = None /\ rs = [::] by case: (remote_name a) HR Hrs.
  case: F => [ETT [Ebe _]].
  apply: (Main None) => //; first by rewrite Ebe.
  + by rewrite Ebe.
  + by move=> j t Hj; rewrite Ebe (Pb _ _ Hj).
  + by rewrite HT ETT /= -[List.length b]/(size b) Lb.
  + by move=> c; rewrite Ers.
Qed.
