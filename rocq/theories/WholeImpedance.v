(** Other units of the channels, from the coefficients to the results. *)
From Coq Require Import Reals Lra.
From Coquelicot Require Import Complex.
From mathcomp Require Import all_ssreflect all_algebra.
From Verif Require Import CField.
From Verif Require Import Base BaseLemmas Arith TagsModel SyncModel SetModel FourierModel MestModel SpecMest WeightModel RobustModel BiModel
  SimProofs FullModel SpecFull UtilsModel SpecUtils UtilsProofs WholeModel WholeScale WholeUnits SpecWhole.
Set Implicit Arguments.
Unset Strict Implicit.
Unset Printing Implicit Defensive.
Import GRing.Theory.
Local Open Scope ring_scope.

Lemma nth_error_seq (T : Type) (x0 : T) (l : list T) j : is_true (leq (S j) (size l)) -> nth_error l j = Some (seq.nth x0 l j).
Proof. elim: l j => [|x l IH] [|j] //=; exact: IH. Qed.
Lemma seq_nth_error (T : Type) (x0 : T) (l : list T) j x : nth_error l j = Some x -> is_true (leq (S j) (size l)) /\ seq.nth x0 l j = x.
Proof. elim: l j => [|y l IH] [|j] //=; [by case=> ->|exact: IH]. Qed.

Lemma scale_row_spec d row : List.length (scale_row d row) = List.length row /\
  forall j x, nth_error row j = Some x -> nth_error (scale_row d row) j = Some (Cmult (d j) x).
Proof.
split; first exact: size_scale_row.
move=> j x /(seq_nth_error 0) [Hj <-]; by rewrite (nth_error_seq 0) ?size_scale_row // nth_scale_row.
Qed.

Lemma scale_row_entrywise d (rows : list (list C)) : entrywise (fun i j x => Cmult (d j) x) rows (List.map (scale_row d) rows).
Proof.
split; first exact: List.map_length.
move=> i row H; exists (scale_row d row); split; first by rewrite List.nth_error_map H.
exact: scale_row_spec.
Qed.

Lemma prefilter_scale us vs outputs inputs pf iv : size us = size outputs -> size vs = size inputs -> nonzero_all us -> nonzero_all vs -> unit_free pf ->
  apply_prefilter listU (scale_each us outputs) (scale_each vs inputs) pf iv = apply_prefilter listU outputs inputs pf iv.
Proof.
move=> L1 L2 Hu Hv Hp; rewrite /apply_prefilter.
have Ls : List.length (scale_each us outputs) = List.length outputs := size_scale_each L1.
rewrite {}Ls; case: (check _ _) => //= _; case: (check _ _) => //= _; case: pf Hp => // f Hf.
set l := (match iv with PNone => _ | _ => _ end); move: l => l; rewrite rows_scale //.
have E : forall us outputs l, size us = size outputs -> nonzero_all us ->
  mapM (fun p => bind (f (fst p) (List.map (scale_row (dfun vs)) (l_rows inputs))) (fun r => Ok (union1d (snd p) r))) (combine (scale_each us outputs) l)
  = mapM (fun p => bind (f (fst p) (l_rows inputs)) (fun r => Ok (union1d (snd p) r))) (combine outputs l).
  elim=> [|u us' IH] [|e outs] [|iv' l'] //= [L] H; inversion H; subst.
  rewrite (Hf u (dfun vs) e (l_rows inputs)) //; [|by move=> j; exact: dfun_nz|exact: scale_row_entrywise].
  case: (f _ _) => //= r; by rewrite -IH.
exact: E.
Qed.

(** the coefficients of all channels *)
Definition scale_all (D : nat -> C) (coeffs : list (list C)) : list (list C) := scale_each (List.map D (List.seq 0 (List.length coeffs))) coeffs.

Lemma nth_error_scale_all D coeffs i : nth_error (scale_all D coeffs) i = option_map (List.map (Cmult (D i))) (nth_error coeffs i).
Proof.
rewrite /scale_all /scale_each -{2}[i](Nat.add_0_l i); move: O => n.
by elim: coeffs i n => [|l ll IH] [|i] n //=; rewrite ?Nat.add_0_r // IH -Nat.add_succ_comm.
Qed.

Lemma pick_scale D coeffs idx : mapM (fun i => nth_res (scale_all D coeffs) i) idx = rmap (scale_each (List.map D idx)) (mapM (fun i => nth_res coeffs i) idx).
Proof.
elim: idx => [|i idx IH] //=; rewrite IH /nth_res nth_error_scale_all; case: (nth_error coeffs i) => //= l.
by case: (mapM _ _).
Qed.
Lemma pick_size (coeffs : list (list C)) idx l : mapM (fun i => nth_res coeffs i) idx = Ok l -> size l = size idx.
Proof.
elim: idx l => [|i idx IH] l /=; first by case=> <-.
case: (nth_res coeffs i) => //= x; case: (mapM _ _) IH => //= l' IH [<-] /=; by rewrite (IH l').
Qed.

Definition arr_map {S T} (g : S -> T) (x : arr S) : arr T := match x with Values t => Values (g t) | NaNs n m => NaNs n m end.
Definition change_result (D : nat -> C) (es bs rs : list nat) (r : result) : result :=
  mkIres listU (arr_map (scale_table (List.map D es) (List.map D bs)) (ir_z listU r)) (ir_ivt listU r)
    (arr_map (scale_errors (List.map D es) (List.map D bs)) (ir_err listU r))
    (arr_map (scale_table (List.map D bs) (List.map D rs)) (ir_T listU r)).

Lemma rows_of_scale x cs vs l : size cs = size l ->
  rows_of (k := listK) x (List.map fst (scale_results (dfun vs) cs l)) = rmap (scale_table cs vs) (rows_of (k := listK) x (List.map fst l)).
Proof.
rewrite /rows_of /scale_results /scale_table; elim: cs l => [|c cs IH] [|[[z|] iv] l] //= [L].
by rewrite IH //; case: (mapM _ _).
Qed.
Lemma snd_scale d cs (l : list (option (list C) * list Z)) : size cs = size l -> List.map snd (scale_results d cs l) = List.map snd l.
Proof. by rewrite /scale_results; elim: cs l => [|c cs IH] [|p l] //= [L]; rewrite IH. Qed.

Section Coeffs.
Variables (a : arguments) (ws : list (option (weight (k := listK)))).
Hypotheses (Wa : ia_weights a = weightings listW ws) (Ws : library_weights ws).
Hypotheses (Wr : match ia_remote_weights a with None => True | Some l => exists wl, l = weightings listW wl /\ library_weights wl end).
Hypotheses (Pa : unit_free (ia_prefilter a)) (Pr : unit_free (ia_remote_prefilter a)).

Lemma remote_weights_lib : exists wl, remote_weights a = weightings listW wl /\ library_weights wl.
Proof.
rewrite /remote_weights; case: (ia_remote_weights a) Wr => [[|w l]|]; try by exists ws.
done.
Qed.
Lemma remote_prefilter_free : unit_free (remote_prefilter a).
Proof. by rewrite /remote_prefilter; case: (ia_remote_prefilter a) Pr. Qed.

Lemma estimate_scale wl us vs outputs inputs ivs h h' : library_weights wl -> outputs <> [::] -> size us = size outputs -> size vs = size inputs ->
  size ivs = size outputs -> nonzero_all us -> nonzero_all vs ->
  fst (estimate listU a (scale_each us outputs) (scale_each vs inputs) (weightings listW wl) ivs h')
  = rmap (scale_results (dfun vs) us) (fst (estimate listU a outputs inputs (weightings listW wl) ivs h)).
Proof.
move=> Wl Ho L1 L2 L3 Hu Hv; rewrite /estimate; case: (ia_real_pb a) => //; cbn [u_rows listU]; rewrite rows_scale //.
apply: transfer_scaled => //. by move=> j; exact: dfun_nz.
Qed.

Lemma estimate_size wl outputs inputs ivs h l : fst (estimate listU a outputs inputs wl ivs h) = Ok l -> size l = size outputs.
Proof.
rewrite /estimate; case: (ia_real_pb a) => //; case E: (transfer_function _ _ _ _ _ _ _) => [r st] /= Hr; rewrite {}Hr in E.
by have [H _] := transfer_function_solved _ _ _ _ _ _ _ _ E.
Qed.

Lemma nonempty_prefilter outputs inputs pf iv ivs : apply_prefilter listU outputs inputs pf iv = Ok ivs -> outputs <> [::] /\ size ivs = size outputs.
Proof.
by move=> H; have [E [_ [E' _]]] := apply_prefilter_spec _ _ _ _ _ _ H.
Qed.

Section Change.
Variables (D : nat -> C) (X X' : recordings) (es bs rs : list nat).
Hypotheses (HD : forall c, D c <> RtoC 0) (Ht : ss_tags X' = ss_tags X).
Hypotheses (He : t_get (ss_tags X) (ia_elec a) = Ok es) (Hb : t_get (ss_tags X) (ia_mag a) = Ok bs).
Hypothesis (Hr : match remote_name a with None => rs = [::] | Some r => t_get (ss_tags X) r = Ok rs end).

Lemma D_all idx : nonzero_all (List.map D idx).
Proof. apply/List.Forall_map; apply/List.Forall_forall => c _; exact: HD. Qed.

(** the first stage *)
Definition change_stage (p : option (list (list C)) * list (list C) * pidx) : option (list (list C)) * list (list C) * pidx :=
  (option_map (scale_table (List.map D bs) (List.map D rs)) (fst (fst p)), scale_each (List.map D bs) (snd (fst p)), snd p).
Lemma stage1_scale b br nE h h' : size b = size bs -> match br with None => True | Some l => size l = size rs end ->
  fst (stage1 listU a (scale_each (List.map D bs) b) (option_map (scale_each (List.map D rs)) br) nE h')
  = rmap (option_map change_stage) (fst (stage1 listU a b br nE h)) /\
  forall T be iv, fst (stage1 listU a b br nE h) = Ok (Some (T, be, iv)) -> size be = size bs /\ match T with Some T => size T = size bs | None => True end.
Proof.
move=> Lb; case: br => [br|] Lr; last by split=> //= T be iv [<- <- _].
cbn [stage1 option_map]; rewrite prefilter_scale ?size_map //; [|exact: D_all|exact: D_all|exact: remote_prefilter_free].
case E0: (apply_prefilter _ _ _ _ _) => [iv0|x] //=.
have [Ho Li] := nonempty_prefilter E0.
have [wl [-> Wl]] := remote_weights_lib.
have S := @estimate_scale wl (List.map D bs) (List.map D rs) b br iv0 h h' Wl Ho _ _ Li (D_all _) (D_all _).
rewrite !size_map in S; move: (S (esym Lb) (esym Lr)) => {}S.
have Sz := @estimate_size (weightings listW wl) b br iv0 h.
move: S Sz; case: (estimate listU a b br _ iv0 h) => r st; case: (estimate _ _ _ _ _ _ h') => r' st' /= -> Sz.
case: r Sz => [l|x] Sz /=; last by case: (ia_silent a).
have Ll := Sz l erefl.
rewrite rows_of_scale ?size_map ?Ll //.
case E: (rows_of ValueError _) => [T|x] //=.
have LT : size T = size bs.
  rewrite -Lb -Ll; move: E; rewrite /rows_of => E; have := mapM_length _ _ _ E; by rewrite List.map_length.
split; last by move=> T' be iv [<- <- _]; rewrite /l_dot size_map.
rewrite dot_scale ?size_map //; last exact: D_all.
by rewrite snd_scale ?size_map ?Ll.
Qed.

(** the tables have one row per output *)
Definition rows_ok (r : result) : Prop :=
  (match ir_z listU r with Values z => size z = size es | NaNs _ _ => True end) /\
  (match ir_err listU r with Values x => size x = size es | NaNs _ _ => True end) /\
  (match ir_T listU r with Values T => size T = size bs | NaNs _ _ => True end).
Lemma coeffs_scale (coeffs : list (list C)) w (h h' : heap listW) : @run_windows listK R calibration X' w = @run_windows listK R calibration X w ->
  fst (impedance_coeffs listU a X' (scale_all D coeffs) w h') = rmap (change_result D es bs rs) (fst (impedance_coeffs listU a X coeffs w h)) /\
  forall r, fst (impedance_coeffs listU a X coeffs w h) = Ok r -> rows_ok r.
Proof.
move=> Hw; rewrite /impedance_coeffs Ht He Hb /= !pick_scale.
case Ee: (mapM _ es) => [e|x] //=; case Eb: (mapM _ bs) => [b|x] //=.
have [Le Lb] := (pick_size Ee, pick_size Eb).
set br' := (match remote_name a with None => Ok None | Some _ => _ end).
set br := (match remote_name a with None => Ok None | Some _ => _ end).
have Ebr : br' = rmap (option_map (scale_each (List.map D rs))) br /\ match br with Ok (Some l) => size l = size rs | _ => True end.
  rewrite /br' /br; case: (remote_name a) Hr => [r|] // ->; rewrite /= pick_scale; case E: (mapM _ rs) => [l|x] //=; split=> //; exact: pick_size E.
case: Ebr => ->; case: br => [br|x] //= Lr.
have Lsz (l : list (list C)) idx : size l = size idx -> List.length (scale_each (List.map D idx) l) = List.length l.
  by move=> L; apply: size_scale_each; rewrite size_map.
rewrite (Lsz e es) // (Lsz b bs) //.
have Lbr : (match option_map (scale_each (List.map D rs)) br with Some l => List.length l | None => O end) = (match br with Some l => List.length l | None => O end).
  by case: (br) Lr => //= l L; rewrite Lsz.
rewrite {}Lbr; have [S1 S2] := @stage1_scale b br (List.length e) h h' Lb Lr.
move: S1 S2; case: (stage1 listU a b br _ h) => s st; case: (stage1 _ _ _ _ _ h') => s' st' /= -> S2.
case: s S2 => [[[[T be] iv1]|]|x] //= S2; last by split=> // r [<-].
have [Lbe LT] := S2 _ _ _ erefl.
rewrite prefilter_scale ?size_map //; [|exact: D_all|exact: D_all].
case E2: (apply_prefilter _ _ _ _ _) => [iv2|x] //=.
have [Ho Li] := nonempty_prefilter E2.
rewrite Wa.
have S := @estimate_scale ws (List.map D es) (List.map D bs) e be iv2 st st' Ws Ho _ _ Li (D_all _) (D_all _).
rewrite !size_map in S; move: (S (esym Le) (esym Lbe)) => {}S.
have Sz := @estimate_size (weightings listW ws) e be iv2 st.
move: S Sz; case: (estimate listU a e be _ iv2 st) => r st2; case: (estimate _ _ _ _ _ _ st') => r' st2' /= -> Sz.
case: r Sz => [l|x] Sz /=; last by case: (ia_silent a); split=> //= r [<-].
have Ll := Sz l erefl.
rewrite rows_of_scale ?size_map ?Ll // snd_scale ?size_map ?Ll // Hw.
case E: (rows_of IndexError _) => [z|x] //=.
have Lz : size z = size e.
  rewrite -Ll; move: E; rewrite /rows_of => E; have := mapM_length _ _ _ E; by rewrite List.map_length.
rewrite error_scale ?size_map ?Le ?Lz //; try exact: D_all.
2: by rewrite Ll Le.
case E3: (l_error _ _ _ _) => [err|x] //=.
split; first by rewrite /change_result /=; case: T {S2 LT}.
move=> r [<-]; split; first by rewrite /= Lz Le.
split; last by case: (T) LT.
move: E3; rewrite /= /l_error; case: (_ \in _) => // -[<-]; rewrite size_map !size_zip size_map Lz Ll Le.
by rewrite !minnn.
Qed.
End Change.
End Coeffs.
