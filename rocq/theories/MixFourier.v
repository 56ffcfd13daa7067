(** Combined channels, from the samples to the coefficients. *)
From Coq Require Import Reals Lra.
From Coquelicot Require Import Complex.
From mathcomp Require Import all_ssreflect all_algebra.
From Verif Require Import CField.
From Verif Require Import Base BaseLemmas Arith TagsModel SyncModel SetModel FourierModel MestModel SpecMest WeightModel RobustModel BiModel
  SimProofs FullModel SpecFull UtilsModel SpecUtils UtilsProofs WholeModel WholeScale WholeUnits SpecWhole WholeImpedance WholeFourier SpecRemote SpecMixed.
Set Implicit Arguments.
Unset Strict Implicit.
Unset Printing Implicit Defensive.
Import GRing.Theory.
Local Open Scope ring_scope.

Lemma csum_big n F : csum n F = \sum_(j < n) F j.
Proof.
rewrite /csum -(big_mkord xpredT) /index_iota subn0.
have -> : List.seq 0 n = iota 0 n by move: O; elim: n => //= n IH m; rewrite IH.
by elim: (iota 0 n) => [|k l IH]; rewrite ?big_nil // big_cons /= IH.
Qed.

(** the channels of some columns *)
Definition lines (n : nat) (cols : list (nat -> C)) : list (list C) := List.map (fun c => List.map (fun col => col c) cols) (List.seq 0 n).
Definition mixcol (n : nat) (A : nat -> nat -> C) (col : nat -> C) : nat -> C := fun c => \sum_(d < n) A c d * col d.

Lemma size_lines n cols : List.length (lines n cols) = n.
Proof. by rewrite /lines List.map_length List.seq_length. Qed.
Lemma nth_lines n cols c : nth_error (lines n cols) c = if Nat.ltb c n then Some (List.map (fun col => col c) cols) else None.
Proof.
rewrite /lines List.nth_error_map; case: Nat.ltb_spec => H.
  by rewrite (List.nth_error_nth' _ O) ?List.seq_length // List.seq_nth.
by rewrite (proj2 (List.nth_error_None _ _)) ?List.seq_length.
Qed.

(** ** One channel *)
Definition window_of (L i : nat) (y : list R) : list R := List.firstn L (List.skipn i y).
Lemma channel_windows x Lw sh N y : List.length y = N ->
  channel_coeffs r_dot x Lw sh y =
  rmap (List.map (fun i => r_dot x (window_of (Z.to_nat Lw) i y)))
    (if ((Lw <? 0)%Z || (Z.of_nat N <? Lw)%Z) then Err ValueError else py_slice (List.seq 0 (N - Z.to_nat Lw + 1)) (mkSlice None None (Some sh))).
Proof.
move=> L; rewrite /channel_coeffs /sliding_window_view L; case: (_ || _) => //=.
rewrite slice_map; case: (py_slice _ _) => //= l; by rewrite List.map_map.
Qed.

Lemma rsum_S n F : rsum (S n) F = Rplus (rsum n F) (F n).
Proof.
rewrite /rsum List.seq_S List.map_app List.fold_right_app /= Rplus_0_r.
elim: (List.map F _) => [|a l IH] /=; [ring|rewrite IH; ring].
Qed.

(** linearity of [r_dot] in functions on the samples *)
Lemma r_dot_sum n x (W : list nat) (m : nat -> R) (h : nat -> nat -> R) :
  r_dot x (List.map (fun t => rsum n (fun d => Rmult (m d) (h d t))) W) = \sum_(d < n) RtoC (m d) * r_dot x (List.map (h d) W).
Proof.
elim: n => [|n IH].
  rewrite big_ord0 /rsum /=; elim: x W => [|u x IH] [|t W] //=; rewrite /r_dot /= -/(r_dot x _) IH -[0 in LHS]/(RtoC R0); change (Cplus (Cmult u (RtoC R0)) (RtoC R0) = RtoC R0); by rewrite Cmult_0_r Cplus_0_r.
rewrite big_ord_recr /= -IH; elim: x W {IH} => [|u x IH] [|t W]; rewrite /r_dot /=; try by rewrite -[RtoC R0]/(0 : C) mulr0 addr0.
rewrite -!/(r_dot x _) IH rsum_S RtoC_plus RtoC_mult.
set P := r_dot x _; set Q := r_dot x _.
set K := rsum n _; set H := h n t; set m0 := RtoC (m n).
change (Cplus (Cmult u (Cplus (RtoC K) (Cmult m0 (RtoC H)))) (Cplus P (Cmult m0 Q)) = Cplus (Cplus (Cmult u (RtoC K)) P) (Cmult m0 (Cplus (Cmult u (RtoC H)) Q))); ring.
Qed.

Lemma samples_of (y : list R) N : List.length y = N -> y = List.map (fun t => seq.nth R0 y t) (List.seq 0 N).
Proof.
move=> <-; have -> : List.seq 0 (List.length y) = iota 0 (size y) by rewrite -[List.length y]/(size y); move: O; elim: (size y) => //= n IH m; rewrite IH.
by rewrite -[List.map _ _]/[seq _ | t <- iota 0 (size y)] (map_nth_iota0 R0) // take_size.
Qed.
Lemma window_map (h : nat -> R) L i l : window_of L i (List.map h l) = List.map h (List.firstn L (List.skipn i l)).
Proof. by rewrite /window_of List.skipn_map List.firstn_map. Qed.

Lemma dot_combination n x L i N (ys : list (list R)) (m : nat -> R) y' : (forall y, List.In y ys -> List.length y = N) -> List.length ys = n -> List.length y' = N ->
  (forall t x', nth_error y' t = Some x' -> x' = rsum n (fun d => Rmult (m d) (List.nth t (List.nth d ys [::]) R0))) ->
  r_dot x (window_of L i y') = \sum_(d < n) RtoC (m d) * r_dot x (window_of L i (List.nth d ys [::])).
Proof.
move=> Hy Ln Ly H.
have -> : y' = List.map (fun t => rsum n (fun d => Rmult (m d) (List.nth t (List.nth d ys [::]) R0))) (List.seq 0 N).
  rewrite {1}(samples_of Ly); apply: List.map_ext_in => t /List.in_seq [_ Ht].
  apply: (H t); rewrite (List.nth_error_nth' _ R0); last by rewrite Ly.
  congr Some; by elim: (y') (t) => [|a l IH] [|k] //=.
rewrite window_map (@r_dot_sum n x _ m (fun d t => List.nth t (List.nth d ys [::]) R0)).
apply: eq_bigr => d _; congr (_ * r_dot x _); rewrite -window_map; congr window_of.
have Hd : List.In (List.nth d ys [::]) ys by apply: List.nth_In; rewrite Ln; apply/ltP.
rewrite [RHS](samples_of (Hy _ Hd)); apply: List.map_ext => t; by elim: (List.nth d ys [::]) (t) => [|a l IH] [|k] //=.
Qed.

(** ** One run *)
Lemma list_seq (T : Type) (d : T) (l : list T) n : List.length l = n -> l = List.map (fun c => List.nth c l d) (List.seq 0 n).
Proof.
move=> <-; elim: l => [|a l IH] //=; congr cons; by rewrite -List.seq_shift List.map_map.
Qed.
Lemma calibrations_seq f (v : nat -> C) (ks : list calibration) n : List.length ks = n ->
  (forall c k, nth_error ks c = Some k -> k f = Ok (Some (v c)) /\ v c <> RtoC 0) ->
  mapM (fun k : calibration => k f) ks = Ok (List.map Some (List.map v (List.seq 0 n))).
Proof.
move=> <-; elim: ks v => [|k ks IH] v H //=; have [-> _] := H O k erefl.
rewrite -List.seq_shift /= (IH (fun c => v (S c))); first by rewrite /= !List.map_map.
by move=> c k' Hk; exact: (H (S c)).
Qed.
Lemma dedup_same (l : list nat) N : l <> [::] -> (forall x, List.In x l -> x = N) -> dedup Nat.eqb l = [:: N].
Proof.
elim: l => [|a l IH] // _ H; have Ea := H a (or_introl erefl); subst a; cbn [dedup].
have [->|Hl] : l = [::] \/ l <> [::] by case: (l); [left|right].
  done.
by rewrite IH //= ?Nat.eqb_refl // => x Hx; apply: H; right.
Qed.

Lemma channels_windows x Lw sh N data : (forall y, List.In y data -> List.length y = N) -> data <> [::] ->
  mapM (channel_coeffs r_dot x Lw sh) data =
  rmap (fun idx => List.map (fun y => List.map (fun i => r_dot x (window_of (Z.to_nat Lw) i y)) idx) data)
    (if ((Lw <? 0)%Z || (Z.of_nat N <? Lw)%Z) then Err ValueError else py_slice (List.seq 0 (N - Z.to_nat Lw + 1)) (mkSlice None None (Some sh))).
Proof.
set S := (if _ then _ else _) => H.
have {H} H y : List.In y data -> channel_coeffs r_dot x Lw sh y = rmap (List.map (fun i => r_dot x (window_of (Z.to_nat Lw) i y))) S.
  by move=> Hy; apply: channel_windows; exact: H.
case: S H => [idx|e] H Hd.
  elim: (data) H => [|y l IH] H //=; rewrite H /=; last by left.
  by rewrite IH /= // => y' Hy; apply: H; right.
by case: (data) Hd H => [|y l] // _ H /=; rewrite H /=; last by left.
Qed.

Definition sfour (s : sync RA R calibration) f nper ov w := sync_fourier (A := RA) r_tone Cmult r_dot (fun k : calibration => k) Cdiv s f nper ov w.
Lemma sync_mixed f n A s s' nper ov w : run_mixed f n A s s' ->
  (exists x, sfour s f nper ov w = Err x /\ sfour s' f nper ov w = Err x) \/
  exists cols wd, sfour s f nper ov w = Ok (lines n cols, wd) /\ sfour s' f nper ov w = Ok (lines n (List.map (mixcol n A) cols), wd).
Proof.
move=> [Er [_ [Ld [Lc [Ld' [Lc' [[N HN] [v [v' [Hv [Hv' H]]]]]]]]]]].
rewrite /sfour /sync_fourier (calibrations_seq Lc Hv) (calibrations_seq Lc' Hv') /= !of_options /= Er /time_to_freq.
have H1 y : List.In y (s_data s) -> List.length y = N by move=> Hy; apply: HN; apply: List.in_or_app; left.
have H2 y : List.In y (s_data s') -> List.length y = N by move=> Hy; apply: HN; apply: List.in_or_app; right.
case: (Nat.eq_dec n 0) => [E0|N0].
  left; exists AssertionError; rewrite E0 in Ld Ld'; by case: (s_data s) Ld => //; case: (s_data s') Ld'.
have D1 : s_data s <> [::] by move=> E; apply: N0; rewrite -Ld E.
have D2 : s_data s' <> [::] by move=> E; apply: N0; rewrite -Ld' E.
have DD (S T : Type) (u : S -> list T) (l : list S) K : l <> [::] -> (forall y, List.In y l -> List.length (u y) = K) -> dedup Nat.eqb (List.map (@List.length T) (List.map u l)) = [:: K].
  move=> Hl Hu; apply: dedup_same; first by case: (l) Hl.
  by move=> k /List.in_map_iff [z [<- /List.in_map_iff [y [<- Hy]]]]; exact: Hu.
have E1 := DD _ _ id _ _ D1 H1; have E2 := DD _ _ id _ _ D2 H2; rewrite !List.map_id in E1 E2; rewrite {}E1 {}E2 /=.
case: (check _ _) => //= [_|x]; last by left; exists x.
case: (discrete_window _ _ _ _) => /= [[[Nw Lw] sh]|x]; last by left; exists x.
case: (eval_window _ _) => /= [o|x]; last by left; exists x.
set x := kernel _ _ _ _ _.
rewrite (channels_windows x Lw sh H1 D1) (channels_windows x Lw sh H2 D2).
case: (if _ then _ else _) => [idx|e] /=; last by left; exists e.
rewrite (DD _ _ (fun y => List.map (fun i => r_dot x (window_of (Z.to_nat Lw) i y)) idx) _ (List.length idx) D1); last by move=> y _; exact: List.map_length.
rewrite (DD _ _ (fun y => List.map (fun i => r_dot x (window_of (Z.to_nat Lw) i y)) idx) _ (List.length idx) D2); last by move=> y _; exact: List.map_length.
right; exists (List.map (fun i c => Cdiv (r_dot x (window_of (Z.to_nat Lw) i (List.nth c (s_data s) [::]))) (v c)) idx); eexists; split=> /=; congr (Ok (_, _)).
  rewrite {1}(list_seq [::] Ld) /lines List.map_map.
  have -> (S T U : Type) (f1 : S -> T) (f2 : S -> U) l : combine (List.map f1 l) (List.map f2 l) = List.map (fun z => (f1 z, f2 z)) l by elim: l => //= a l ->.
  rewrite List.map_map; apply: List.map_ext => c /=; by rewrite !List.map_map.
rewrite {1}(list_seq [::] Ld') /lines List.map_map.
have -> (S T U : Type) (f1 : S -> T) (f2 : S -> U) l : combine (List.map f1 l) (List.map f2 l) = List.map (fun z => (f1 z, f2 z)) l by elim: l => //= a l ->.
rewrite List.map_map; apply: List.map_ext_in => c /List.in_seq [_ Hc] /=; rewrite !List.map_map; apply: List.map_ext => i.
have Ey : nth_error (s_data s') c = Some (List.nth c (s_data s') [::]) by apply: List.nth_error_nth'; rewrite Ld'.
have [m [Hm HA]] := H _ _ Ey.
have In' : List.In (List.nth c (s_data s') [::]) (s_data s') by apply: List.nth_In; rewrite Ld'.
rewrite (@dot_combination n x _ i N (s_data s) m _ H1 Ld (H2 _ In') Hm) /mixcol.
rewrite -[Cdiv _ _]/(_ * Cinv (v' c)) big_distrl; apply: eq_bigr => d _ /=.
have {HA} HA := HA d (ltP (ltn_ord d)).
set G := r_dot x _; change (Cmult (Cmult (RtoC (m d)) G) (Cinv (v' c)) = Cmult (A c d) (Cdiv G (v d))).
have -> : Cmult (Cmult (RtoC (m d)) G) (Cinv (v' c)) = Cmult (Cdiv (RtoC (m d)) (v' c)) G by rewrite /Cdiv; ring.
rewrite HA /Cdiv; ring.
Qed.

(** ** All runs *)
Lemma min_len_lines n l : l <> [::] -> min_len (List.map (lines n) l) = n.
Proof.
elim: l => [|c l IH] // _; case: l IH => [|c' l] IH; first exact: size_lines.
rewrite -[min_len _]/(Nat.min (List.length (lines n c)) (min_len (List.map (lines n) (c' :: l)))) IH // size_lines; exact: Nat.min_id.
Qed.
Lemma zip_lines n l : l <> [::] -> List.map (@concat C) (pyzip (List.map (lines n) l)) = lines n (List.concat l).
Proof.
move=> Hl; rewrite /pyzip min_len_lines // List.map_map; apply: List.map_ext_in => c /List.in_seq [_ Hc].
elim: (l) => [|x l' IH] //=; rewrite List.concat_app List.map_app IH nth_lines.
by case: Nat.ltb_spec Hc => [_ _|? ?] /=; [rewrite List.app_nil_r|lia].
Qed.

#[local] Arguments lines : simpl never.
#[local] Arguments pyzip : simpl never.
Theorem coefficients_mixed fo f n A X X' : recordings_mixed f n A X X' ->
  (exists x, coefficients fo X f = Err x /\ coefficients fo X' f = Err x) \/
  exists cols w, coefficients fo X f = Ok (lines n cols, w) /\ coefficients fo X' f = Ok (lines n (List.map (mixcol n A) cols), w).
Proof.
move=> [_ H]; rewrite /coefficients /set_fourier.
set F := (fun s => sync_fourier _ _ _ _ _ s _ _ _ _).
have D : (exists x, mapM F (ss_signals X) = Err x /\ mapM F (ss_signals X') = Err x) \/
  exists l : list (list (nat -> C) * (nat * nat * nat)), mapM F (ss_signals X) = Ok (List.map (fun p => (lines n p.1, p.2)) l) /\
    mapM F (ss_signals X') = Ok (List.map (fun p => (lines n (List.map (mixcol n A) p.1), p.2)) l).
  elim: H => [|s s' l l' Hs _ IH]; first by right; exists [::].
  cbn [mapM]; have [[x [E E']]|[cols [wd [E E']]]] := @sync_mixed f n A s s' (fo_nper fo) (fo_overlap fo) (fo_window fo) Hs.
    by left; exists x; rewrite -[F s]/(sfour _ _ _ _ _) -[F s']/(sfour _ _ _ _ _) E E'.
  rewrite -[F s]/(sfour _ _ _ _ _) -[F s']/(sfour _ _ _ _ _) E E' /=.
  case: IH => [[x [-> ->]]|[l0 [-> ->]]]; first by left; exists x.
  by right; exists ((cols, wd) :: l0).
case: D => [[x [-> ->]]|[l [-> ->]]]; first by left; exists x.
case: l => [|p l]; first by left; exists ValueError.
right; exists (List.concat (List.map fst (p :: l))); eexists; split; cbn [bind List.map]; congr (Ok (_, _)).
- have := @zip_lines n (List.map fst (p :: l)); rewrite List.map_map => <- //=; by rewrite !List.map_map.
- have := @zip_lines n (List.map (List.map (mixcol n A)) (List.map fst (p :: l))); rewrite -List.concat_map !List.map_map => <- //=; by rewrite !List.map_map.
- by rewrite /= !List.map_map.
Qed.

Lemma windows_mixed f n A X X' w : recordings_mixed f n A X X' -> @run_windows listK R calibration X' w = @run_windows listK R calibration X w.
Proof.
move=> [_ H]; rewrite /run_windows; case: w => [[Nw Lw] sh]; congr (combine _ _).
by elim: H => [|s s' l l' [E1 [E2 _]] _ IH] //=; rewrite IH E1 E2.
Qed.
