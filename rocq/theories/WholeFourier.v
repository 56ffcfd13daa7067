(** Other units of the channels, from the samples to the coefficients. *)
From Coq Require Import Reals Lra.
From Coquelicot Require Import Complex.
From mathcomp Require Import all_ssreflect all_algebra.
From Verif Require Import CField.
From Verif Require Import Base BaseLemmas Arith TagsModel SyncModel SetModel FourierModel MestModel SpecMest WeightModel RobustModel BiModel
  SimProofs FullModel SpecFull UtilsModel SpecUtils UtilsProofs WholeModel WholeScale WholeUnits SpecWhole WholeImpedance.
Set Implicit Arguments.
Unset Strict Implicit.
Unset Printing Implicit Defensive.
Import GRing.Theory.
Local Open Scope ring_scope.

Lemma r_dot_scale x a y : r_dot x (List.map (Rmult a) y) = Cmult (RtoC a) (r_dot x y).
Proof.
rewrite /r_dot; elim: x y => [|u x IH] [|v y] //=; try by rewrite Cmult_0_r.
by rewrite IH RtoC_mult; ring.
Qed.

Lemma view_map (S T : Type) (g : S -> T) y Lw :
  sliding_window_view (List.map g y) Lw = rmap (List.map (List.map g)) (sliding_window_view y Lw).
Proof.
rewrite /sliding_window_view List.map_length; case: (_ || _) => //=.
rewrite List.map_map; congr Ok; apply: List.map_ext => i; by rewrite List.skipn_map List.firstn_map.
Qed.
Lemma znth_map (S T : Type) (g : S -> T) l i : znth_res (List.map g l) i = rmap g (znth_res l i).
Proof.
rewrite /znth_res; case: (_ <? _)%Z => //=; rewrite /nth_res List.nth_error_map; by case: (nth_error _ _).
Qed.
Lemma mapM_rmap (A B B' : Type) (g : B -> B') (f : A -> res B) f' l : (forall x, f' x = rmap g (f x)) -> mapM f' l = rmap (List.map g) (mapM f l).
Proof.
move=> H; elim: l => [|x l IH] //=; rewrite H IH; case: (f x) => //= y; by case: (mapM _ _).
Qed.
Lemma slice_map (S T : Type) (g : S -> T) l sl : py_slice (List.map g l) sl = rmap (List.map g) (py_slice l sl).
Proof.
rewrite /py_slice List.map_length; case: (slice_range _ _) => //= idx; apply: mapM_rmap => i; exact: znth_map.
Qed.

Lemma channel_scale x Lw sh a y :
  channel_coeffs r_dot x Lw sh (List.map (Rmult a) y) = rmap (List.map (Cmult (RtoC a))) (channel_coeffs r_dot x Lw sh y).
Proof.
rewrite /channel_coeffs view_map; case: (sliding_window_view _ _) => //= v; rewrite slice_map; case: (py_slice _ _) => //= rows.
rewrite !List.map_map; congr Ok; apply: List.map_ext => r; exact: r_dot_scale.
Qed.

(** samples multiplied by real numbers *)
Definition scale_real (al : list R) (data : list (list R)) : list (list R) := List.map (fun p => List.map (Rmult (fst p)) (snd p)) (combine al data).

Lemma lengths_real al data : size al = size data -> List.map (@List.length R) (scale_real al data) = List.map (@List.length R) data.
Proof. rewrite /scale_real; elim: al data => [|a al IH] [|y data] //= [L]; by rewrite List.map_length IH. Qed.
Lemma channels_scale x Lw sh al data : size al = size data ->
  mapM (channel_coeffs r_dot x Lw sh) (scale_real al data) = rmap (scale_each (List.map RtoC al)) (mapM (channel_coeffs r_dot x Lw sh) data).
Proof.
rewrite /scale_real /scale_each; elim: al data => [|a al IH] [|y data] //= [L].
rewrite channel_scale IH //; case: (channel_coeffs _ _ _ _ _) => //= c; by case: (mapM _ _).
Qed.
Lemma lengths_each cs ll : size cs = size ll -> List.map (@List.length C) (scale_each cs ll) = List.map (@List.length C) ll.
Proof. rewrite /scale_each; elim: cs ll => [|a al IH] [|y data] //= [L]; by rewrite List.map_length IH. Qed.

Lemma time_scale al data fs f nper ov w : size al = size data ->
  time_to_freq (A := RA) r_tone Cmult r_dot (scale_real al data) fs f nper ov w =
  rmap (fun p => (scale_each (List.map RtoC al) (fst p), snd p)) (time_to_freq (A := RA) r_tone Cmult r_dot data fs f nper ov w) /\
  forall p, time_to_freq (A := RA) r_tone Cmult r_dot data fs f nper ov w = Ok p -> size (fst p) = size data.
Proof.
move=> L; rewrite /time_to_freq lengths_real //.
case: (dedup _ _) => [|n [|m l]] //=; case: (check _ _) => //= _; case: (discrete_window _ _ _ _) => //= -[[Nw Lw] sh].
case: (eval_window _ _) => //= o; rewrite channels_scale //; case E: (mapM _ data) => [ll|x] //=.
have Ll := mapM_length _ _ _ E.
rewrite lengths_each; last by rewrite size_map L; exact: esym.
by case: (dedup _ _) => [|k [|m l]] //=; split=> // p [<-].
Qed.

(** the factors of the channels of a run, one list for each *)
Lemma run_factors f (d : nat -> C) ys ys' ks ks' :
  List.length ks = List.length ys -> List.length ks' = List.length ys' -> List.length ys' = List.length ys ->
  (forall c y y' k k', nth_error ys c = Some y -> nth_error ys' c = Some y' -> nth_error ks c = Some k -> nth_error ks' c = Some k' ->
    channel_changed f (d c) y y' k k') ->
  exists al vl vl', size al = size ys /\ ys' = scale_real al ys /\
    mapM (fun k : calibration => k f) ks = Ok (List.map Some vl) /\ mapM (fun k : calibration => k f) ks' = Ok (List.map Some vl') /\
    size vl = size ys /\ size vl' = size ys /\
    forall (ll : list (list C)), size ll = size ys ->
     List.map (fun p => List.map (fun c => Cdiv c (snd p)) (fst p)) (combine (scale_each (List.map RtoC al) ll) vl') =
     scale_each (List.map d (List.seq 0 (List.length ll))) (List.map (fun p => List.map (fun c => Cdiv c (snd p)) (fst p)) (combine ll vl)).
Proof.
elim: ys d ys' ks ks' => [|y ys IH] d [|y' ys'] [|k ks] [|k' ks'] //= L1 L2 L3 H.
  exists [::], [::], [::]; split=> //; do 5!(split=> //); by case.
have [al [vl [vl' [A1 [-> [A2 [A3 [A4 [A5 A6]]]]]]]]] := IH (fun c => d (S c)) ys' ks ks' (Nat.succ_inj _ _ L1) (Nat.succ_inj _ _ L2) (Nat.succ_inj _ _ L3)
  (fun c => H (S c)).
have [a [v [v' [V [V' [Nv [Nv' [-> Ea]]]]]]]] := H O y y' k k' erefl erefl erefl erefl.
exists (a :: al), (v :: vl), (v' :: vl'); split; first by rewrite /= A1.
split=> //; rewrite V V' A2 A3 /=; split=> //; split=> //; split; first by rewrite /= A4.
split; first by rewrite /= A5.
move=> [|l ll] //= [Ll]; rewrite /scale_each /= -List.seq_shift; congr (_ :: _).
  rewrite !List.map_map; apply: List.map_ext => c; rewrite -[Cdiv (Cmult _ _) _]/(Cmult (Cmult (RtoC a) c) (Cinv v')).
  have -> : Cmult (Cmult (RtoC a) c) (Cinv v') = Cmult (Cdiv (RtoC a) v') c by rewrite /Cdiv; ring.
  rewrite Ea /Cdiv; ring.
move: (A6 ll Ll); by rewrite /scale_each (List.map_map S d).
Qed.

Definition scaled_coeffs (d : nat -> C) {T} (p : list (list C) * T) : list (list C) * T := (scale_all d (fst p), snd p).
Lemma of_options (vl : list C) : mapM (of_option AssertionError) (List.map Some vl) = Ok vl.
Proof. by elim: vl => [|v vl IH] //=; rewrite IH. Qed.

Lemma sync_scale f d s s' nper ov w : run_changed f d s s' ->
  sync_fourier (A := RA) r_tone Cmult r_dot (fun k : calibration => k) Cdiv s' f nper ov w =
  rmap (scaled_coeffs d) (sync_fourier (A := RA) r_tone Cmult r_dot (fun k : calibration => k) Cdiv s f nper ov w).
Proof.
move=> [Er [_ [L1 [L2 [L3 H]]]]].
have [al [vl [vl' [A1 [A0 [A2 [A3 [A4 [A5 A6]]]]]]]]] := run_factors L1 L2 L3 H.
rewrite /sync_fourier A2 A3 /= !of_options /= A0 Er.
have [-> Sz] := time_scale (s_rate s) f nper ov w A1.
case E: (time_to_freq _ _ _ _ _ _ _ _ _) => [[ll wd]|x] //=.
have Ll : size ll = size (s_data s) := Sz _ E.
congr Ok; rewrite /scaled_coeffs /= A6 // /scale_all; congr (scale_each _ _, _).
by rewrite List.map_length List.combine_length; move: Ll A4; rewrite -!/(List.length _) => Ll A4; rewrite -[List.length vl]/(size vl) A4 -Ll Nat.min_id.
Qed.
Lemma scale_all_seq d (F : nat -> list C) n :
  scale_all d (List.map F (List.seq 0 n)) = List.map (fun j => List.map (Cmult (d j)) (F j)) (List.seq 0 n).
Proof.
rewrite /scale_all /scale_each List.map_length List.seq_length; move: O => m; elim: n m => [|n IH] m //=; by rewrite IH.
Qed.

Lemma min_len_scale d ll : min_len (List.map (scale_all d) ll) = min_len ll.
Proof.
have L l : List.length (scale_all d l) = List.length l by apply: size_scale_each; rewrite size_map -[LHS]/(List.length _) List.seq_length.
elim: ll => [|l ll IH] //; case: ll IH => [|l' ll] IH; first exact: L.
move: IH; cbn [List.map]; rewrite -[min_len (scale_all d l :: _)]/(Nat.min (List.length (scale_all d l)) (min_len (scale_all d l' :: List.map (scale_all d) ll))).
by move=> ->; rewrite L.
Qed.
Lemma zip_scale d (ll : list (list (list C))) : List.map (@concat C) (pyzip (List.map (scale_all d) ll)) = scale_all d (List.map (@concat C) (pyzip ll)).
Proof.
rewrite /pyzip min_len_scale !List.map_map scale_all_seq; apply: List.map_ext => j.
elim: ll => [|l ll IH] //=; rewrite List.concat_app IH nth_error_scale_all.
rewrite List.concat_app List.map_app; congr (_ ++ _); case: (nth_error l j) => //= x; by rewrite !List.app_nil_r.
Qed.

#[local] Arguments scale_all : simpl never.
#[local] Arguments pyzip : simpl never.
Theorem coefficients_changed fo f d X X' : recordings_changed f d X X' ->
  coefficients fo X' f = rmap (scaled_coeffs d) (coefficients fo X f).
Proof.
move=> [_ H]; rewrite /coefficients /set_fourier.
have -> : mapM (fun s => sync_fourier (A := RA) r_tone Cmult r_dot (fun k : calibration => k) Cdiv s f (fo_nper fo) (fo_overlap fo) (fo_window fo)) (ss_signals X')
  = rmap (List.map (scaled_coeffs d)) (mapM (fun s => sync_fourier (A := RA) r_tone Cmult r_dot (fun k : calibration => k) Cdiv s f (fo_nper fo) (fo_overlap fo) (fo_window fo)) (ss_signals X)).
  elim: H => [|s s' l l' Hs _ IH] //=; rewrite IH (sync_scale _ _ _ Hs); case: (sync_fourier _ _ _ _ _ _ _ _ _ _) => //= p; by case: (mapM _ _).
case: (mapM _ _) => [[|p l]|x] //=.
have /= Z := zip_scale d (List.map fst (p :: l)); rewrite List.map_map in Z.
rewrite (List.map_map (scaled_coeffs d) fst) (List.map_map (scaled_coeffs d) snd) /= Z. do 3!rewrite List.map_map. done.
Qed.

Lemma windows_changed f d X X' w : recordings_changed f d X X' -> @run_windows listK R calibration X' w = @run_windows listK R calibration X w.
Proof.
move=> [_ H]; rewrite /run_windows; case: w => [[Nw Lw] sh]; congr (combine _ _).
by elim: H => [|s s' l l' [E1 [E2 _]] _ IH] //=; rewrite IH E1 E2.
Qed.
