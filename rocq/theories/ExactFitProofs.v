(** Channels that follow others without noise: complete robust estimates fail. *)
From Coq Require Import Reals Lra Lia.
From Coquelicot Require Import Complex.
From mathcomp Require Import all_ssreflect all_algebra.
From Verif Require Import WlseModel WlseProofs CField RemoteMx.
From Verif Require Import Base BaseLemmas Arith TagsModel SyncModel SetModel FourierModel MestModel WeightModel RobustModel SpecRobust RobustProofs RobustWeights BiModel BiProofs SimProofs
  FullModel SpecFull FullProofs ExactProofs PrefilterModel UtilsModel SpecUtils UtilsProofs UtilsRun WholeModel WholeUnits SpecRemote SpecExactFit WholeImpedance WholeRemote WholeExact.
Set Implicit Arguments.
Unset Strict Implicit.
Unset Printing Implicit Defensive.
Import GRing.Theory.
Local Open Scope ring_scope.
Local Notation H := (herm cjC).

(** ** One step *)
Section Step.
Variables (b : list (list C)) (e : list C) (z : list C).
Let B := mx_rows (width b) b.
Let Z := column_of (width b) z.
Hypotheses (U : full_rank B) (Le : List.length e = List.length b) (X : mostly_exact B e Z).

Lemma size_B : List.length B = List.length b.
Proof. exact: List.map_length. Qed.

Lemma list_nan_call w : of_library w = true -> forall i st, nth_error (full_resid e B Z) i = Some (Some (RtoC R0)) ->
  exists l st', call listW w O (l_resid e b z) e b [] st = (Ok (Some l), st') /\ List.length l = List.length b /\ nth_error l i = Some NaN.
Proof.
have Z0 a : xdiv (Fin (Rmult a R0)) (Fin (Cmod (RtoC R0))) = NaN.
  rewrite Cmod_0 /= /infinite; case: Req_EM_T => [_|H0]; last by exfalso; apply: H0.
  case: Rlt_dec => [H0|_]; first by exfalso; lra. case: Rlt_dec => [H0|_] //; exfalso; lra.
have Z1 : xdiv (Fin (Cmod (RtoC R0))) (Fin R0) = NaN.
  by have := Z0 R0; rewrite Cmod_0 Rmult_0_r.
have Lr : List.length (full_resid e B Z) = List.length b by rewrite /full_resid List.map_length combine_length size_B Le Nat.min_id.
have Sc : mad_scale (vnorm (l_resid e b z)) = Some R0 by exact: exact_scale X.
elim: w => [f|alpha|id xi|id inner IH lower khi] SW i st I; cbn [of_library] in SW; try discriminate SW; cbn [call].
- do 2 eexists; split; first by reflexivity. rewrite /w_huber /listW /= Sc; split.
    by rewrite List.map_length /vnorm List.map_length.
  rewrite /vnorm List.map_map; rewrite (map_nth_error _ _ _ I); cbn [option_map of_opt xmul]; by rewrite Z0.
- do 2 eexists; split; first by reflexivity. rewrite /w_thomson /listW /= Sc /thomson; split.
    by rewrite List.map_length /vnorm List.map_length.
  by rewrite /vnorm List.map_map; rewrite (map_nth_error _ _ _ I) /of_opt /option_map Z1.
- set p0 := mkBi (-1)%Z _ _ _; set h := hset _ st id (SBi _ p0).
  have -> : h id = Some (SBi listW p0) by rewrite /h /hset Nat.eqb_refl.
  rewrite [bi_it p0]/=; have -> : (Z.of_nat 0 =? 1 + -1)%Z = true by [].
  have [l [st' [E [Ll Hi]]]] := IH SW i h I; rewrite E; cbn [bind of_option Z.eqb Z.add Z.of_nat Z.opp].
  have -> : set_at l [] (k_zero listK) = Ok l by exact: set_none.
  have [ql [Q Lq]] := quad_ok U.
  cbn [bind]; rewrite /w_bi /listW /= /bi_formula /= /l_quad -/B Q /=.
  do 2 eexists; split; first by reflexivity.
  have Lm : List.length l = List.length ql by rewrite Ll Lq -size_B.
  split; first by rewrite map2_length // !List.map_length.
  have [y Hy] : exists y, nth_error ql i = Some y.
    case Ey : (nth_error ql i) => [y|]; first by exists y.
    exfalso; apply List.nth_error_None in Ey; have : nth_error l i <> None by rewrite Hi.
    move=> /List.nth_error_Some; move: Ey; rewrite -Lm; lia.
  apply: (@map2_nth _ _ _ xmul _ _ _ NaN _ Hi).
  rewrite !List.map_map; exact: (map_nth_error _ _ _ Hy).
Qed.

Lemma list_robust_exact (o : opts listK) w st : of_library w = true -> (0 < o_maxit o)%Z ->
  exists st', m_estimate (k := listK) o e b (Some z) (Some (call listW w)) [] st = (Err ValueError, st').
Proof.
move=> SW P; rewrite /m_estimate.
case Ef : (Z.to_nat (o_maxit o)) => [|fuel]; first by exfalso; lia.
cbn [iterate]; rewrite /eval_weight set_none.
have [i I] := exact_row X; have [l [st' [E [Ll Hn]]]] := list_nan_call SW st I.
exists st'; rewrite -[k_resid _ _ _ _]/(l_resid e b z) E; cbn [bind]; rewrite set_none; cbn [bind].
rewrite /solve; have -> : weights_fit (k := listK) (List.length e) (Some l) = true by rewrite /weights_fit Ll Le Nat.eqb_refl.
cbn [check bind]; by rewrite /= /l_wlse /full_wlse (weights_nan Hn).
Qed.
End Step.

(** ** One output *)
Section Output.
Variables (n : nat) (ins : list (list C)) (e : list C) (v : 'cV[C]_(size ins)).
Hypotheses (Hn : is_true (leq 1 n)) (Ni : ins <> [::]) (Ai : all_of n ins).
Let Y := chan n (size ins) ins.
Hypotheses (I : forall u : 'cV[C]_(size ins), Y *m u = 0 -> u = 0) (Le : size e = n) (Ev : column_of n e = Y *m v).
Let b := l_rows ins.

Lemma rows_size : List.length b = n.
Proof. by rewrite -[List.length b]/(size b) /b size_l_rows (all_columns Ai Ni). Qed.
Lemma rows_width : width b = size ins.
Proof. by rewrite /b width_l_rows // (all_columns Ai Ni). Qed.
Lemma rows_rank : full_rank (mx_rows (width b) b).
Proof.
rewrite rows_width; apply/gram.
have -> : size (mx_rows (size ins) b) = n by rewrite /mx_rows -rows_size -[RHS](List.map_length (row_of (size ins))).
rewrite /b rows_chan ?(all_columns Ai Ni) //; exact: gram_unit_inj.
Qed.
Lemma rows_exact : e = noise_free (mx_rows (width b) b) (column_of (width b) (values v)).
Proof.
rewrite rows_width column_values /noise_free; apply: (@seq.eq_from_nth _ 0).
  by rewrite -[size (List.map _ _)]/(List.length _) List.map_length /mx_rows List.map_length rows_size.
move=> t; rewrite Le => Ht.
have Lb : size b = n := rows_size.
rewrite (nth_map 0); last by rewrite /mx_rows -[size _]/(List.length _) List.map_length rows_size.
have -> : seq.nth 0 e t = column_of n e (Ordinal Ht) 0 by rewrite mxE.
rewrite Ev [LHS]mxE [RHS]mxE; apply: eq_bigr => j _; congr (_ * _).
by rewrite /Y -(@rows_chan n ins) ?(all_columns Ai Ni) // mxE.
Qed.

Lemma output_fails (o : opts listK) w l h : of_library w = true -> (0 < o_maxit o)%Z ->
  exists h', chain (k := listK) o e b (weightings listW (None :: Some w :: l)) None [] h = (Err ValueError, h').
Proof.
move=> SW P.
have Ne : (List.length e =? 0)%nat = false by rewrite -[List.length e]/(size e) Le; case: (n) Hn.
have Lb : List.length e = List.length b by rewrite rows_size.
have Nb : mx_rows (width b) b <> [].
  by move=> E; have := rows_size; rewrite -(size_B b) E /= => E0; move: Hn; rewrite -E0.
cbn [weightings List.map option_map]; rewrite -/(weightings listW l).
set tl := Some (call listW w) :: weightings listW l.
cbn [chain eliminate bind]; rewrite Ne; cbn [negb check bind m_estimate].
rewrite /solve; cbn [weights_fit check bind].
have -> : k_wlse listK e b None = Ok (values v).
  rewrite -[k_wlse _ _ _ _]/(l_wlse e b None) /l_wlse {1}rows_exact (wlse_noise_free _ rows_rank) /=.
  by rewrite rows_width column_values.
cbn [bind].
have X : mostly_exact (mx_rows (width b) b) e (column_of (width b) (values v)).
  by rewrite {1}rows_exact; exact: noise_free_exact.
have [h' E] := list_robust_exact rows_rank Lb X h SW P.
rewrite /tl; cbn [chain eliminate bind]; rewrite Ne; cbn [negb check bind]; rewrite E; by exists h'.
Qed.
End Output.

(** ** All outputs *)
Section Outputs.
Variables (o : opts listK) (b : list (list C)) (ws : list (option (wfun listK (heap listW)))).
Definition chain_fails e := forall h, exists h', chain (k := listK) o e b ws None [] h = (Err ValueError, h').

Lemma each_fails i outs e h : nth_error outs i = Some e -> chain_fails e ->
  exists x h', each_output (k := listK) o b ws outs (repeat None (List.length outs)) (repeat (Ok []) (List.length outs)) h = (Err x, h') /\ (i = O -> x = ValueError).
Proof.
elim: outs i h => [|e0 outs IH] [|i] h //=.
  by move=> [->] F; have [h' E] := F h; rewrite E /=; exists ValueError, h'.
move=> Hi F; case: (chain _ _ _ _ _ _ _) => r h1.
case: (bind r _) => [y|x]; last by exists x, h1.
by have [x [h' [E _]]] := IH i h1 Hi F; rewrite E /=; exists x, h'.
Qed.

Lemma transfer_fails i outs e h : List.Forall (fun e => List.length e = List.length b) outs -> nth_error outs i = Some e -> chain_fails e ->
  exists x h', transfer_function (k := listK) o outs b ws None (IvEach (repeat [] (List.length outs))) h = (Err x, h') /\ (i = O -> x = ValueError).
Proof.
have MR m : List.map Ok (repeat ([::] : list Z) m) = repeat (Ok [::]) m by elim: m => //= m ->.
move=> F Hi HF.
have No : outs <> [::] by case: outs Hi {F} => //; case: i.
rewrite /transfer_function /iv_each.
have -> : (match repeat [::] (List.length outs) with [::] => Ok (repeat (Ok [::]) (List.length outs)) | _ => Ok (List.map Ok (repeat [::] (List.length outs))) end)
  = Ok (repeat (Ok ([::] : list Z)) (List.length outs)) :> res (list (res (list Z))).
  case: outs No {F Hi} => //= e1 os _; by rewrite MR.
rewrite /= List.repeat_length.
have -> : (List.length outs =? 0)%nat = false by case: outs No {F Hi}.
rewrite Nat.eqb_refl /=.
have -> : forallb (fun e => (List.length e =? List.length b)%nat) outs = true.
  apply/List.forallb_forall => e1 Hin; apply/Nat.eqb_eq; exact: (proj1 (List.Forall_forall _ _) F).
rewrite /= List.repeat_length Nat.eqb_refl /=; exact: each_fails Hi HF.
Qed.
End Outputs.

(** ** One stage, on channels *)
Section Stage.
Variables (a : arguments) (coeffs : list (list C)) (n : nat) (es bs : list nat) (e b : list (list C)).
Hypotheses (Hn : is_true (leq 1 n)) (Nb : bs <> [::]) (Sb : separate coeffs n bs).
Hypotheses (Le : size e = size es) (Ae : all_of n e) (Pe : forall i t, (i < List.length es)%coq_nat -> entry e i t = channel coeffs es i t).
Hypotheses (Lb : size b = size bs) (Ab : all_of n b) (Pb : forall i t, (i < List.length bs)%coq_nat -> entry b i t = channel coeffs bs i t).

Lemma stage_fails ws i h : robust ws -> (0 < o_maxit (ia_opts a))%Z -> (i < List.length es)%coq_nat -> follows coeffs n es bs i ->
  exists x h', estimate listU a e b ws (repeat [::] (List.length e)) h = (Err x, h') /\ (ia_real_pb a = false -> i = O -> x = ValueError).
Proof.
move=> [w [l [SW ->]]] P Hi [v Hv]; rewrite /estimate; case: (ia_real_pb a); first by exists TypeError, h.
have Nb' := nonempty_of Lb Nb.
have Hi' : is_true (leq (S i) (size e)) by apply/ltP; rewrite Le.
set V : 'cV[C]_(size b) := \col_j v j.
have F : chain_fails (ia_opts a) (l_rows b) (weightings listW (None :: Some w :: l)) (seq.nth [::] e i).
  move=> h0; apply: (@output_fails n b _ V) => //; [exact: separate_mx Lb Pb Sb|exact: all_nth|].
  apply/colP => t; rewrite (@combination_mx coeffs n bs b v V Lb Pb _ t); last by move=> j; rewrite mxE.
  by rewrite -Hv; [rewrite mxE -(Pe t Hi)|apply/ltP].
have [|x [h' [E G]]] := @transfer_fails (ia_opts a) (l_rows b) _ i e (seq.nth [::] e i) h _ (nth_error_seq [::] Hi') F.
  apply: List.Forall_impl Ae => y Ly; rewrite -[RHS]/(size (l_rows b)) size_l_rows (all_columns Ab Nb'); exact: Ly.
by exists x, h'; split; [exact E|].
Qed.
End Stage.

(** ** One set of coefficients *)
Section Coefficients.
Variables (a : arguments) (X : recordings) (coeffs : list (list C)) (w : windows) (n : nat) (es bs : list nat).
Hypotheses (He : t_get (ss_tags X) (ia_elec a) = Ok es) (Hb : t_get (ss_tags X) (ia_mag a) = Ok bs).
Hypotheses (Hn : (0 < n)%coq_nat) (Nb : bs <> [::]) (Re : recorded coeffs n es) (Rb : recorded coeffs n bs) (Pm : (0 < o_maxit (ia_opts a))%Z).
Let L0 (l : list (list C)) : l <> [::] -> (List.length l =? 0)%nat = false.
Proof. by case: l. Qed.

Lemma local_fails i h : remote_name a = None -> ia_prefilter a = None -> robust (ia_weights a) -> separate coeffs n bs -> (i < List.length es)%coq_nat -> follows coeffs n es bs i ->
  exists x h', impedance_coeffs listU a X coeffs w h = (if ia_silent a then Ok (nan_result (size es) (size bs) 0) else Err x, h') /\ (ia_real_pb a = false -> i = O -> x = ValueError).
Proof.
move=> Hr Pf Rw Sb Hi Fi.
have [e [Ee [Le [Ae Pe]]]] := picked Re; have [b [Eb [Lb [Ab Pb]]]] := picked Rb.
have Ne : e <> [::] by move=> E; move: Hi; rewrite -[List.length es]/(size es) -Le E => Hi; inversion Hi.
have Hn' : is_true (leq 1 n) by apply/ltP.
have [x [h' [E G]]] := @stage_fails a coeffs n es bs e b Hn' Nb Sb Le Ae Pe Lb Ab Pb _ i h Rw Pm Hi Fi.
exists x, h'; split=> //.
rewrite /impedance_coeffs He Hb /= Ee Eb Hr /= Pf /apply_prefilter List.repeat_length Nat.eqb_refl L0 //= E.
by rewrite /nan_result -Le -Lb.
Qed.

Lemma remote_fails r rs j h : remote_name a = Some r -> t_get (ss_tags X) r = Ok rs -> ia_prefilter a = None -> ia_remote_prefilter a = None ->
  rs <> [::] -> recorded coeffs n rs -> robust (remote_weights a) -> separate coeffs n rs -> (j < List.length bs)%coq_nat -> follows coeffs n bs rs j ->
  exists x h', impedance_coeffs listU a X coeffs w h = (if ia_silent a then Ok (nan_result (size es) (size bs) (size rs)) else Err x, h') /\ (ia_real_pb a = false -> j = O -> x = ValueError).
Proof.
move=> Hr Tr Pf Prf Nr Rr Rw Sr Hj Fj.
have [e [Ee [Le [Ae Pe]]]] := picked Re; have [b [Eb [Lb [Ab Pb]]]] := picked Rb; have [br [Er [Lr [Ar Pr]]]] := picked Rr.
have Nb' := nonempty_of Lb Nb.
have Hn' : is_true (leq 1 n) by apply/ltP.
have [x [h' [E G]]] := @stage_fails a coeffs n bs rs b br Hn' Nr Sr Lb Ab Pb Lr Ar Pr _ j h Rw Pm Hj Fj.
exists x, h'; split=> //.
rewrite /impedance_coeffs He Hb /= Ee Eb Hr /= Tr /= Er /= /remote_prefilter Prf Pf /apply_prefilter List.repeat_length Nat.eqb_refl L0 //= E.
by rewrite /nan_result -Le -Lb -Lr; case: (ia_silent a).
Qed.
End Coefficients.

(** ** Lists of frequencies *)
Section Lists.
Variables (fo : fopts) (a : arguments) (X : recordings) (ne nb nr : nat) (value_error : R -> Prop).
Definition fails (f : R) : Prop := forall h, exists x h', impedance_one listU (coefficients fo) a X f h = (if ia_silent a then Ok (nan_result ne nb nr) else Err x, h')
  /\ (value_error f -> x = ValueError).

Lemma list_silent l out m f x : ia_silent a = true -> fails f -> whole_impedance fo a X l = Ok out -> nth_error l m = Some f -> nth_error out m = Some x -> x = nan_result ne nb nr.
Proof.
move=> Sa F Ho Hf Hx.
case E : (impedance listU (coefficients fo) a X l (fresh listW)) => [r h].
have Er : r = Ok out by move: Ho; rewrite /whole_impedance E.
have [x' [Hx' [s [s' H1]]]] := Forall2_nth_error _ _ _ _ _ (impedance_each listU (coefficients fo) a X l _ _ _ (eq_trans E (f_equal (fun r => (r, h)) Er))) Hf.
have Ex : x' = x by move: Hx'; rewrite Hx => -[].
by have [y [s2 [E2 _]]] := F s; move: H1; rewrite E2 Sa Ex => -[].
Qed.

Lemma list_raises l out f : ia_silent a = false -> fails f -> List.In f l -> whole_impedance fo a X l <> Ok out.
Proof.
move=> Sa F /(List.In_nth_error _ _) [m Hf] Ho.
case E : (impedance listU (coefficients fo) a X l (fresh listW)) => [r h].
have Er : r = Ok out by move: Ho; rewrite /whole_impedance E.
have [x' [Hx' [s [s' H1]]]] := Forall2_nth_error _ _ _ _ _ (impedance_each listU (coefficients fo) a X l _ _ _ (eq_trans E (f_equal (fun r => (r, h)) Er))) Hf.
by have [y [s2 [E2 _]]] := F s; move: H1; rewrite E2 Sa.
Qed.

Lemma first_raises f l : ia_silent a = false -> fails f -> value_error f -> whole_impedance fo a X (f :: l) = Err ValueError.
Proof.
move=> Sa F V; rewrite /whole_impedance /impedance /=.
by have [x [h' [E G]]] := F (fresh listW); rewrite E Sa /= G.
Qed.

Lemma all_silent l : ia_silent a = true -> (forall f, List.In f l -> fails f) -> whole_impedance fo a X l = Ok (repeat (nan_result ne nb nr) (List.length l)).
Proof.
move=> Sa F; rewrite /whole_impedance /impedance.
have [h' ->] : exists h', impedance_results listU (coefficients fo) a X l (fresh listW) = (Ok (repeat (nan_result ne nb nr) (List.length l)), h').
  elim: l (fresh listW) F => [|f l IH] h F /=; first by exists h.
  have [x [h1 [E _]]] := F f (or_introl erefl) h; rewrite E Sa.
  have [h2 E2] := IH h1 (fun g Hg => F g (or_intror Hg)); rewrite E2 /=; by exists h2.
have G (g : result -> nat * nat) : stack (List.map g (repeat (nan_result ne nb nr) (List.length l))) = Ok tt.
  apply: (@stack_same (g (nan_result ne nb nr))); apply/List.Forall_map; apply/List.Forall_forall => y Hy; by rewrite (List.repeat_spec _ _ _ Hy).
by rewrite /= !G.
Qed.
End Lists.

(** ** The first estimation *)
Section First.
Variables (fo : fopts) (a : arguments) (X : recordings) (es bs rs outs ins : list nat) (ws : list (option (wfun listK (heap listW)))).
Hypotheses (Fe : first_estimation a X es bs rs outs ins ws) (Rw : robust ws) (Pm : (0 < o_maxit (ia_opts a))%Z) (Nb : bs <> [::]) (Ni : ins <> [::]).

Lemma first_fails f i : exact_fit fo X f (es ++ bs ++ rs) outs ins i ->
  fails fo a X (size es) (size bs) (size rs) (fun _ => ia_real_pb a = false /\ i = O) f.
Proof.
move=> [coeffs [w [n [Ec [Hn [Rc [Si [Hi Fi]]]]]]]] h; case: Fe => [He [Hb [Pf Hr]]].
have R1 : recorded coeffs n es by move=> c Hc; apply: Rc; apply/List.in_app_iff; left.
have R2 : recorded coeffs n bs by move=> c Hc; apply: Rc; apply/List.in_app_iff; right; apply/List.in_app_iff; left.
have R3 : recorded coeffs n rs by move=> c Hc; apply: Rc; apply/List.in_app_iff; right; apply/List.in_app_iff; right.
rewrite /impedance_one He Hb /=.
case Ea : (ia_remote a) Hr => [r|].
  move=> [Nr [Tr [Prf [Eo [Ei Ew]]]]].
  have Hrn : remote_name a = Some r by rewrite /remote_name Ea; move/String.eqb_neq: Nr => ->.
  rewrite Hrn Tr /= Ec; rewrite Eo Ei in Hi Fi Si; have Ni' : rs <> [::] by rewrite -Ei.
  have Rw' : robust (remote_weights a).
    rewrite /remote_weights; case: Ew => [[-> Nw]|[Ew Ew']]; first by case: (ws) Nw Rw.
    by move: Rw; rewrite Ew'; case: Ew => ->.
  have [x [h' [E G]]] := @remote_fails a X coeffs w n es bs He Hb Hn Nb R1 R2 Pm r rs i h Hrn Tr Pf Prf Ni' R3 Rw' Si Hi Fi.
  by exists x, h'; split=> // -[Hp H0]; exact: G.
move=> [Er [Eo [Ei Ew]]].
have Hrn : remote_name a = None by rewrite /remote_name Ea.
rewrite Hrn /= Ec; rewrite Eo Ei in Hi Fi Si; rewrite Er; have Rw' : robust (ia_weights a) by rewrite -Ew.
have [x [h' [E G]]] := @local_fails a X coeffs w n es bs He Hb Hn Nb R1 R2 Pm i h Hrn Pf Rw' Si Hi Fi.
by exists x, h'; split=> // -[Hp H0]; exact: G.
Qed.

Theorem exact_silent l out m f x i : ia_silent a = true -> exact_fit fo X f (es ++ bs ++ rs) outs ins i ->
  whole_impedance fo a X l = Ok out -> nth_error l m = Some f -> nth_error out m = Some x -> x = nan_result (List.length es) (List.length bs) (List.length rs).
Proof. move=> Sa /first_fails F; exact: (list_silent Sa F). Qed.
Theorem exact_raises l out f i : ia_silent a = false -> exact_fit fo X f (es ++ bs ++ rs) outs ins i -> List.In f l -> whole_impedance fo a X l <> Ok out.
Proof. move=> Sa /first_fails F; exact: (list_raises Sa F). Qed.
Theorem exact_error l f : ia_silent a = false -> ia_real_pb a = false -> exact_fit fo X f (es ++ bs ++ rs) outs ins 0 -> whole_impedance fo a X (f :: l) = Err ValueError.
Proof. move=> Sa Rp /first_fails F; exact: (first_raises _ Sa F). Qed.
Theorem exact_all l : ia_silent a = true -> (forall f, List.In f l -> exists i, exact_fit fo X f (es ++ bs ++ rs) outs ins i) ->
  whole_impedance fo a X l = Ok (repeat (nan_result (List.length es) (List.length bs) (List.length rs)) (List.length l)).
Proof.
move=> Sa F; apply: (@all_silent fo a X (size es) (size bs) (size rs) (fun _ => False) l Sa) => f Hf h.
have [i Fi] := F f Hf; have [x [h' [E _]]] := first_fails Fi h; by exists x, h'.
Qed.
End First.
