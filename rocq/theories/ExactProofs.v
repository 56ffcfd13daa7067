(** Data that fit exactly: least squares succeeds, every robust step fails. *)
From Coq Require Import Reals Lra.
From Coquelicot Require Import Complex.
From mathcomp Require Import all_ssreflect all_algebra.
From Verif Require Import WlseModel WlseProofs CField.
From Verif Require Import Base BaseLemmas Arith MestModel WeightModel RobustModel SpecRobust RobustProofs RobustWeights BiModel BiProofs SimProofs FullModel SpecFull FullProofs.
Set Implicit Arguments.
Unset Strict Implicit.
Unset Printing Implicit Defensive.
Import GRing.Theory.
Local Open Scope ring_scope.

Section Exact.
Variable q : nat.

Lemma gram (b : list 'rV[C]_q) : full_rank b <-> normal cjC (rows (size b) b) None \in unitmx.
Proof.
rewrite /full_rank; suff -> : \sum_(r <- b) (map_mx cjC r)^T *m r = normal cjC (rows (size b) b) None by [].
rewrite (big_nth 0) big_mkord /normal /dotdiag; apply/matrixP => i j; rewrite summxE [RHS]mxE; apply: eq_bigr => k _.
by rewrite mxE big_ord1 !mxE.
Qed.

Lemma wlse_noise_free (b : list 'rV[C]_q) z : full_rank b -> full_wlse (noise_free b z) b None = Ok z.
Proof.
move=> /gram U; rewrite /full_wlse /=.
have -> : wlse_rows cjC (noise_free b z) b None = Some z; last by [].
rewrite (@wlse_rows_n _ _ (size b)) ?size_map //; apply/wlse_iff; split=> //.
rewrite /normal /rhs /dotdiag -mulmxA; congr (_ *m _); apply/matrixP => i j; rewrite !mxE ord1.
rewrite (nth_map 0) // mxE; apply: eq_bigr => k _; by rewrite mxE.
Qed.

Lemma quad_ok (b : list 'rV[C]_q) : full_rank b -> exists l, full_quad b None = Ok l /\ List.length l = size b.
Proof.
move=> /gram U; rewrite /full_quad /= U; eexists; split; first by reflexivity.
by rewrite List.map_length -[List.length _]/(size _) size_enum_ord.
Qed.

Lemma exact_scale (b : list 'rV[C]_q) e z : mostly_exact b e z -> mad_scale (vnorm (full_resid e b z)) = Some R0.
Proof.
intros (fit & other & P & L & F).
set r := full_resid e b z; set rs := List.map (fun p => fst p - (snd p *m z) 0 0) (combine e b).
have N : numbers r rs.
  rewrite /numbers /r /rs /full_resid List.map_map {P r rs}; elim: (combine e b) => // x l IH; cbn [List.map List.filter]; congr cons; exact IH.
have W : mostly_within (List.map Cmod rs) R0 R0.
  exists (List.map (fun p => Cmod (fst p - (snd p *m z) 0 0)) fit), (List.map (fun p => Cmod (fst p - (snd p *m z) 0 0)) other).
  split; first by rewrite -List.map_app /rs List.map_map; apply: Permutation_map.
  split; first by rewrite !List.map_length.
  apply/List.Forall_map; apply: (List.Forall_impl _ _ F) => -[x y] /= ->; rewrite subrr Cmod_0; lra.
have [s S] : exists s, scale_of r s.
  apply: scale_exists; case: fit P L F => [|p fit] P L F; first by exfalso; inversion L.
  exists (fst p - (snd p *m z) 0 0); rewrite /r /full_resid; apply/List.in_map_iff; exists p; split=> //.
  by apply: (Permutation_in _ (Permutation_sym P)); left.
have [S0 S1] := scale_within _ _ _ _ _ N W S; rewrite (scale_spec _ _ S); congr Some; lra.
Qed.

Lemma exact_row (b : list 'rV[C]_q) e z : mostly_exact b e z -> exists i, nth_error (full_resid e b z) i = Some (Some (RtoC R0)).
Proof.
intros (fit & other & P & L & F).
case: fit P L F => [|p fit] P L F; first by exfalso; inversion L.
have I : In (Some (RtoC R0)) (full_resid e b z).
  apply/List.in_map_iff; exists p; split; last by apply: (Permutation_in _ (Permutation_sym P)); left.
  inversion F; subst; congr Some; by rewrite H1 subrr.
exact: In_nth_error.
Qed.

Lemma set_none (T : Type) (l : list T) v : set_at l [] v = Ok l.
Proof.
rewrite /set_at; cbn [forallb check bind designated existsb]; congr Ok; rewrite /enum.
suff H : forall n, List.map (fun p : nat * T => snd p) (combine (List.seq n (List.length l)) l) = l by exact: H.
by elim: l => //= x l IH n; rewrite IH.
Qed.

Lemma nan_call w : of_library w = true -> forall (b : list 'rV[C]_q) e z i st, full_rank b -> List.length e = List.length b -> mostly_exact b e z ->
  nth_error (full_resid e b z) i = Some (Some (RtoC R0)) ->
  exists l st', call (fullW q) w O (full_resid e b z) e b [] st = (Ok (Some l), st') /\ List.length l = List.length b /\ nth_error l i = Some NaN.
Proof.
have Z0 a : xdiv (Fin (Rmult a R0)) (Fin (Cmod (RtoC R0))) = NaN.
  rewrite Cmod_0 /= /infinite; case: Req_EM_T => [_|H]; last by exfalso; apply: H.
  case: Rlt_dec => [H|_]; first by exfalso; lra. case: Rlt_dec => [H|_] //; exfalso; lra.
have Z1 : xdiv (Fin (Cmod (RtoC R0))) (Fin R0) = NaN.
  by have := Z0 R0; rewrite Cmod_0 Rmult_0_r.
elim: w => [f|alpha|id xi|id inner IH lower khi] SW b e z i st U Le X I; cbn [of_library] in SW; try discriminate SW; cbn [call].
- do 2 eexists; split; first by reflexivity. rewrite /w_huber /fullW /= exact_scale //; split.
    by rewrite List.map_length /vnorm List.map_length /full_resid List.map_length combine_length Le Nat.min_id.
  rewrite /vnorm List.map_map; rewrite (map_nth_error _ _ _ I); cbn [option_map of_opt xmul]; by rewrite Z0.
- do 2 eexists; split; first by reflexivity. rewrite /w_thomson /fullW /= exact_scale // /thomson; split.
    by rewrite List.map_length /vnorm List.map_length /full_resid List.map_length combine_length Le Nat.min_id.
  by rewrite /vnorm List.map_map; rewrite (map_nth_error _ _ _ I) /of_opt /option_map Z1.
- set p0 := mkBi (-1)%Z _ _ _; set h := hset _ st id (SBi _ p0).
  have -> : h id = Some (SBi (fullW q) p0) by rewrite /h /hset Nat.eqb_refl.
  rewrite [bi_it p0]/=; have -> : (Z.of_nat 0 =? 1 + -1)%Z = true by [].
  have [l [st' [E [Ll Hi]]]] := IH SW b e z i h U Le X I; rewrite E; cbn [bind of_option Z.eqb Z.add Z.of_nat Z.opp].
  have -> : set_at l [] (k_zero (fullK q)) = Ok l by exact: set_none.
  have [ql [Q Lq]] := quad_ok U.
  cbn [bind]; rewrite /w_bi /fullW /= /bi_formula /= Q /=.
  do 2 eexists; split; first by reflexivity.
  have Lm : List.length l = List.length ql by rewrite Ll Lq.
  split; first by rewrite map2_length // !List.map_length.
  have [y Hy] : exists y, nth_error ql i = Some y.
    case Ey : (nth_error ql i) => [y|]; first by exists y.
    exfalso; apply List.nth_error_None in Ey; have : nth_error l i <> None by rewrite Hi.
    move=> /List.nth_error_Some; move: Ey; rewrite Lq Ll -[size b]/(List.length b); lia.
  apply: (@map2_nth _ _ _ xmul _ _ _ NaN _ Hi).
  rewrite !List.map_map; exact: (map_nth_error _ _ _ Hy).
Qed.

Lemma weights_nan l i : nth_error l i = Some NaN -> weights_c (Some l) = Err ValueError.
Proof.
rewrite /weights_c; suff H : nth_error l i = Some NaN -> mapM weight_c l = Err ValueError by move=> /H ->.
elim: l i => [|x l IH] [|i] //=; first by move=> [->].
by move=> /IH H; case: x => [x|||] //=; rewrite H.
Qed.

Lemma robust_exact o w (b : list 'rV[C]_q) e z st : of_library w = true -> full_rank b -> List.length e = List.length b -> mostly_exact b e z ->
  (0 < o_maxit o)%Z -> fst (m_estimate (k := fullK q) o e b (Some z) (Some (call (fullW q) w)) [] st) = Err ValueError.
Proof.
move=> SW U L X P; rewrite /m_estimate.
case Ef : (Z.to_nat (o_maxit o)) => [|fuel]; first by exfalso; lia.
cbn [iterate]; rewrite /eval_weight set_none.
have [i I] := exact_row X; have [l [st' [E [Ll Hn]]]] := nan_call SW st U L X I.
rewrite -[k_resid _ _ _ _]/(full_resid e b z) E; cbn [bind]; rewrite set_none; cbn [bind].
rewrite /solve; have -> : weights_fit (k := fullK q) (List.length e) (Some l) = true by rewrite /weights_fit Ll L Nat.eqb_refl.
cbn [check bind]; rewrite /= /full_wlse (weights_nan Hn) //.
Qed.

Lemma noise_free_length (b : list 'rV[C]_q) z : List.length (noise_free b z) = List.length b.
Proof. exact: List.map_length. Qed.
Lemma noise_free_exact (b : list 'rV[C]_q) z : b <> [] -> mostly_exact b (noise_free b z) z.
Proof.
move=> N; exists (combine (noise_free b z) b), []; rewrite List.app_nil_r; split; first exact: Permutation_refl. split.
  rewrite combine_length noise_free_length; case: b N => //= *; lia.
apply/List.Forall_forall; rewrite /noise_free; elim: b {N} => //= r b IH p [<-|/IH] //.
Qed.

Lemma chain_first o (b : list 'rV[C]_q) e z w ws st x : e <> [] -> fst (m_estimate (k := fullK q) (St := heap (fullW q)) o e b z w [] st) = Err x ->
  fst (chain o e b (w :: ws) z [] st) = Err x.
Proof.
move=> N; cbn [chain eliminate bind]; have -> : negb (List.length e =? 0) = true by case: e N.
by cbn [check bind]; case: (m_estimate _ _ _ _ _ _ _) => [[[]|]] //= ? ? [->].
Qed.

Lemma each_first o (b : list 'rV[C]_q) e es ws z zs iv st x : fst (chain (k := fullK q) (St := heap (fullW q)) o e b ws z [] st) = Err x ->
  fst (each_output o b ws (e :: es) (z :: zs) (Ok [] :: iv) st) = Err x.
Proof. by cbn [each_output]; case: (chain _ _ _ _ _ _ _) => [[[]|]] //= ? ? [->]. Qed.

Lemma transfer_first o (b : list 'rV[C]_q) e es ws z zs st x : List.Forall (fun e => List.length e = List.length b) (e :: es) ->
  List.length zs = List.length es ->
  fst (chain (k := fullK q) (St := heap (fullW q)) o e b ws z [] st) = Err x ->
  fst (transfer_function o (e :: es) b ws (Some (z :: zs)) IvNone st) = Err x.
Proof.
move=> F L H; rewrite /transfer_function.
have -> : iv_each (List.length (e :: es)) IvNone = Ok (Ok [] :: repeat (Ok []) (List.length es)).
  by rewrite /iv_each; cbn [bind List.length repeat Nat.eqb negb check]; rewrite repeat_length Nat.eqb_refl.
have -> : forallb (fun e => List.length e =? List.length b) (e :: es) = true.
  apply/List.forallb_forall => e' /(proj1 (List.Forall_forall _ _) F) ->; exact: Nat.eqb_refl.
cbn [bind check List.length]; rewrite L Nat.eqb_refl; cbn [bind check]; exact: each_first.
Qed.

(** with an initial guess that fits most rows *)
Lemma exact_guess o w ws (b : list 'rV[C]_q) e es z zs st : of_library w = true -> full_rank b ->
  List.Forall (fun e => List.length e = List.length b) (e :: es) -> List.length zs = List.length es ->
  mostly_exact b e z -> (0 < o_maxit o)%Z ->
  fst (transfer_function (k := fullK q) o (e :: es) b (weightings (fullW q) (Some w :: ws)) (Some (Some z :: zs)) IvNone st) = Err ValueError.
Proof.
move=> SW U F L X P; apply: transfer_first => //; apply: chain_first.
  move=> E; subst e; case: X => fit [other [Pm [Lt _]]]; move: Lt; rewrite /= in Pm.
  by have := Permutation_length Pm; rewrite app_length /=; lia.
apply: robust_exact => //; by inversion F.
Qed.

(** noise-free data, starting with least squares *)
Lemma noise_free_fails o w ws (b : list 'rV[C]_q) es z st : of_library w = true -> full_rank b -> b <> [] ->
  List.Forall (fun e => List.length e = List.length b) es -> (0 < o_maxit o)%Z ->
  fst (transfer_function (k := fullK q) o (noise_free b z :: es) b (weightings (fullW q) (None :: Some w :: ws)) None IvNone st) = Err ValueError.
Proof.
move=> SW U N F P.
have NN : noise_free b z <> [] by case: b N {U F}.
have NL : negb (List.length (noise_free b z) =? 0) = true by case: (noise_free b z) NN.
have -> : transfer_function (k := fullK q) o (noise_free b z :: es) b (weightings (fullW q) (None :: Some w :: ws)) None IvNone st
  = transfer_function (k := fullK q) o (noise_free b z :: es) b (weightings (fullW q) (None :: Some w :: ws)) (Some (None :: repeat None (List.length es))) IvNone st by [].
apply: transfer_first; [by constructor=> //; exact: noise_free_length|exact: repeat_length|].
have H := @chain_first o b (noise_free b z) (Some z) (Some (call (fullW q) w)) (weightings (fullW q) ws) st ValueError NN
  (robust_exact st SW U (noise_free_length b z) (noise_free_exact z N) P).
cbn [weightings List.map option_map]; rewrite -/(weightings (fullW q) ws).
set tl := Some (call (fullW q) w) :: weightings (fullW q) ws in H *.
cbn [chain eliminate bind]; rewrite NL; cbn [check bind m_estimate].
rewrite /solve; cbn [weights_fit check bind]; rewrite -[k_wlse _ _ _ _]/(full_wlse (noise_free b z) b None) wlse_noise_free //; cbn [bind].
move: H; case: (chain _ _ _ tl _ _ _) => r st'; cbn [fst] => ->; by [].
Qed.

Lemma noise_free_ls o (b : list 'rV[C]_q) z st : full_rank b -> b <> [] ->
  transfer_function (k := fullK q) o [noise_free b z] b (weightings (fullW q) [None]) None IvNone st = (Ok [(Some z, [])], st).
Proof.
move=> U N.
have NN : noise_free b z <> [] by case: b N {U}.
have NL : negb (List.length (noise_free b z) =? 0) = true by case: (noise_free b z) NN.
rewrite /transfer_function; have -> : iv_each (List.length [noise_free b z]) IvNone = Ok [Ok []] by [].
cbn [bind forallb]; rewrite noise_free_length Nat.eqb_refl; cbn [andb check bind repeat List.length Nat.eqb each_output weightings List.map option_map chain eliminate].
rewrite NL; cbn [check bind m_estimate].
rewrite /solve; cbn [weights_fit check bind]; rewrite -[k_wlse _ _ _ _]/(full_wlse (noise_free b z) b None) wlse_noise_free //.
Qed.
End Exact.
