(** The coefficients of runs in another order are the coefficients in another order. *)
From Coq Require Import Reals Permutation Lia.
From Coquelicot Require Import Complex.
From Verif Require Import Base BaseLemmas Arith TagsModel SyncModel SetModel SpecSet FourierModel SpecFourier FourierProofs FourierSet MestModel BiModel UtilsModel SpecUtils WholeModel SpecRunOrder.
Open Scope nat_scope.

Definition take_at {T} (d : T) (p : list nat) (l : list T) : list T := map (fun i => nth i l d) p.

Lemma take_all {T} (d : T) l : take_at d (seq 0 (length l)) l = l.
Proof.
  unfold take_at. apply nth_error_ext. intros j. rewrite nth_error_map, nth_error_seq. destruct (Nat.ltb_spec j (length l)) as [H|H].
  - symmetry. apply (nth_error_nth' l d), H.
  - symmetry. apply nth_error_None, H.
Qed.
Lemma take_app {T} (d : T) p q l : take_at d (p ++ q) l = take_at d p l ++ take_at d q l.
Proof. apply map_app. Qed.
Lemma take_left {T} (d : T) p a b : (forall i, In i p -> i < length a) -> take_at d p (a ++ b) = take_at d p a.
Proof. intros H. apply map_ext_in. intros i Hi. apply app_nth1, H, Hi. Qed.
Lemma take_right {T} (d : T) q n a b : length a = n -> take_at d (map (plus n) q) (a ++ b) = take_at d q b.
Proof. intros <-. unfold take_at. rewrite map_map. apply map_ext. intros i. rewrite app_nth2_plus. reflexivity. Qed.
Lemma plus_seq n m : map (plus n) (seq 0 m) = seq n m.
Proof.
  apply nth_error_ext. intros j. rewrite nth_error_map, !nth_error_seq. destruct (j <? m); [|reflexivity]. reflexivity.
Qed.

Section Blocks.
Context {S : Type} (N : S -> nat).
Definition fits {T} (l : list S) (sel : S -> list T) : Prop := forall x, In x l -> length (sel x) = N x.
Lemma fits_len {T} l (sel : S -> list T) : fits l sel -> length (concat (map sel l)) = list_sum (map N l).
Proof.
  induction l as [|x l IH]; intros H; [reflexivity|]. simpl. rewrite app_length, (H x (or_introl eq_refl)), IH; [reflexivity|].
  intros y Hy. apply H. right. exact Hy.
Qed.
Lemma blocks l l' : Permutation l l' -> exists p, Permutation p (seq 0 (list_sum (map N l))) /\
  forall T (d : T) sel, fits l sel -> concat (map sel l') = take_at d p (concat (map sel l)).
Proof.
  induction 1 as [|x l l' P (p & Pp & H)|x y l|l1 l2 l3 P1 (p1 & Q1 & H1) P2 (p2 & Q2 & H2)].
  - exists []. split; [constructor|]. reflexivity.
  - exists (seq 0 (N x) ++ map (plus (N x)) p). split.
    + simpl. rewrite seq_app. apply Permutation_app_head. rewrite <- plus_seq. apply Permutation_map, Pp.
    + intros T d sel F. pose proof (F x (or_introl eq_refl)) as Lx. simpl. rewrite take_app, (take_right d p (N x)) by exact Lx.
      rewrite take_left by (intros i Hi; apply in_seq in Hi; lia). rewrite <- Lx, take_all. f_equal.
      apply H. intros z Hz. apply F. right. exact Hz.
  - exists (map (plus (N y)) (seq 0 (N x)) ++ seq 0 (N y) ++ map (plus (N y + N x)) (seq 0 (list_sum (map N l)))). split.
    + simpl. rewrite !plus_seq, Nat.add_assoc, seq_app. rewrite app_assoc. apply Permutation_app_tail.
      rewrite seq_app. apply Permutation_app_comm.
    + intros T d sel F. pose proof (F y (or_introl eq_refl)) as Ly. pose proof (F x (or_intror (or_introl eq_refl))) as Lx. simpl.
      rewrite !take_app. rewrite (take_right d (seq 0 (N x)) (N y)) by exact Ly.
      rewrite (take_left d (seq 0 (N x))) by (intros i Hi; apply in_seq in Hi; lia). rewrite <- Lx, take_all. f_equal.
      rewrite take_left by (intros i Hi; apply in_seq in Hi; lia). rewrite <- Ly at 1. rewrite take_all. f_equal.
      rewrite app_assoc, take_right by (rewrite app_length; lia).
      rewrite <- fits_len with (sel := sel); [rewrite take_all; reflexivity|]. intros z Hz. apply F. right. right. exact Hz.
  - assert (E : list_sum (map N l2) = list_sum (map N l1)).
    { clear - P1. induction P1; simpl; lia. }
    exists (take_at 0 p2 p1). split.
    + apply Permutation_trans with (take_at 0 (seq 0 (length p1)) p1); [|rewrite take_all; exact Q1].
      apply Permutation_map. rewrite (Permutation_length Q1), seq_length, <- E. exact Q2.
    + intros T d sel F. rewrite (H2 T d) by (intros z Hz; apply F, (Permutation_in _ (Permutation_sym P1)), Hz). rewrite (H1 T d sel F).
      unfold take_at. rewrite map_map. apply map_ext_in. intros i Hi.
      assert (Hl : i < length p1).
      { rewrite (Permutation_length Q1), seq_length, <- E. apply (Permutation_in _ Q2), in_seq in Hi. lia. }
      rewrite (nth_indep _ d (nth 0 (concat (map sel l1)) d)) by (rewrite map_length; exact Hl).
      rewrite (map_nth (fun i => nth i (concat (map sel l1)) d)). reflexivity.
Qed.
End Blocks.

Lemma mapM_perm {S T} (g : S -> res T) l l' : Permutation l l' ->
  (exists r r', mapM g l = Ok r /\ mapM g l' = Ok r' /\ Permutation r r') \/ ((exists x, mapM g l = Err x) /\ exists x, mapM g l' = Err x).
Proof.
  intros P. destruct (mapM g l) as [r|x] eqn:E.
  - left. exists r. revert r E. induction P as [|x l l' P IH|x y l|l1 l2 l3 P1 IH1 P2 IH2]; intros r E; cbn [mapM] in *.
    + exists r. auto.
    + destruct (g x) as [y|]; [|discriminate]. cbn [bind] in *. destruct (mapM g l) as [r0|]; [|discriminate]. injection E as <-.
      destruct (IH _ eq_refl) as (r' & _ & -> & Q). exists (y :: r'). split; [reflexivity|]. split; [reflexivity|]. constructor. exact Q.
    + destruct (g y) as [a|]; [|discriminate]. cbn [bind] in *. destruct (g x) as [b|]; [|discriminate]. cbn [bind] in *.
      destruct (mapM g l) as [r0|]; [|discriminate]. injection E as <-. exists (b :: a :: r0). split; [reflexivity|]. split; [reflexivity|]. apply perm_swap.
    + destruct (IH1 _ E) as (r2 & _ & E2 & Q1). destruct (IH2 _ E2) as (r3 & _ & E3 & Q2). exists r3. split; [reflexivity|]. split; [exact E3|].
      exact (Permutation_trans Q1 Q2).
  - right. split; [eauto|]. destruct (mapM g l') as [r'|] eqn:E'; [|eauto]. exfalso.
    destruct (mapM_ok_exists g l) as (r & Hr); [|congruence].
    intros s Hs. apply (Permutation_in _ P) in Hs. destruct (mapM_In _ _ _ _ E' Hs) as (y & _ & Hy). eauto.
Qed.

Definition four1 (fo : fopts) (f : R) (s : sync RA R calibration) :=
  sync_fourier (A := RA) r_tone Cmult r_dot (fun k : calibration => k) Cdiv s f (fo_nper fo) (fo_overlap fo) (fo_window fo).
Lemma four1_same fo f s s' : same_run s s' -> four1 fo f s' = four1 fo f s.
Proof. intros (H1 & H2 & H3). unfold four1, sync_fourier. rewrite H1, H2, H3. reflexivity. Qed.

Definition column {T} (c : nat) (r : list (list T) * (nat * nat * nat)) : list T := nth c (fst r) [].
Lemma zip_columns {T} (l : list (list (list T) * (nat * nat * nat))) n : l <> [] -> (forall r, In r l -> length (fst r) = n) ->
  map (@concat T) (pyzip (map fst l)) = map (fun c => concat (map (column c) l)) (seq 0 n).
Proof.
  intros Ne H. destruct (pyzip_spec (map fst l) n) as (L & Z).
  { destruct l; [congruence|discriminate]. }
  { intros r Hr. apply in_map_iff in Hr as (x & <- & Hx). auto. }
  apply nth_error_ext. intros j. rewrite !nth_error_map, nth_error_seq.
  destruct (nth_error (pyzip (map fst l)) j) as [col|] eqn:E.
  - assert (j < n) by (rewrite <- L; apply nth_error_Some; congruence). destruct (Nat.ltb_spec j n); [|lia]. cbn [option_map]. do 2 f_equal.
    specialize (Z _ _ E). clear - Z. revert col Z. induction l as [|r l IH]; intros col Z; inversion Z; subst; [reflexivity|].
    cbn [map]. f_equal; [|apply IH; assumption]. unfold column. symmetry. apply nth_error_nth. cbn [plus]. assumption.
  - apply nth_error_None in E. destruct (Nat.ltb_spec j n); [lia|reflexivity].
Qed.

(** ** The runs and their counterparts *)
Definition pair : Type := (sync RA R calibration * sync RA R calibration)%type.
Definition outcome : Type := (pair * (list (list C) * (nat * nat * nat)))%type.
Definition four2 fo f (x : pair) : res outcome := bind (four1 fo f (fst x)) (fun r => Ok (x, r)).
Lemma four2_ok fo f l q : mapM (four2 fo f) l = Ok q -> mapM (four1 fo f) (map fst l) = Ok (map snd q) /\ map fst q = l.
Proof.
  revert q. induction l as [|x l IH]; intros q E; cbn [mapM map] in *; [injection E as <-; auto|].
  unfold four2 in E at 1. destruct (four1 fo f (fst x)) as [r|]; [|discriminate]. cbn [bind] in E.
  destruct (mapM (four2 fo f) l) as [q0|]; [|discriminate]. injection E as <-. destruct (IH _ eq_refl) as [-> E2]. cbn. rewrite E2. auto.
Qed.
Lemma four2_err fo f l : (exists x, mapM (four2 fo f) l = Err x) -> exists x, mapM (four1 fo f) (map fst l) = Err x.
Proof.
  intros (x & E). destruct (mapM (four1 fo f) (map fst l)) as [r|y] eqn:E1; [|eauto]. exfalso.
  destruct (mapM_ok_exists (four2 fo f) l) as (q & Hq); [|congruence].
  intros z Hz. destruct (mapM_In _ _ _ _ E1 (in_map fst _ _ Hz)) as (y & _ & Hy). exists (z, y). unfold four2. rewrite Hy. reflexivity.
Qed.
Lemma pairs_of X X' : runs_moved X X' -> exists l l', Permutation l l' /\ ss_signals X = map fst l /\ ss_signals X' = map snd l' /\
  forall x, In x l -> same_run (fst x) (snd x).
Proof.
  intros (_ & runs & P & F).
  assert (H : exists l', runs = map fst l' /\ ss_signals X' = map snd l' /\ Forall (fun x => same_run (fst x) (snd x)) l').
  { clear P. induction F as [|s s' l l' H F (q & E1 & E2 & G)]; [exists []; auto|]. exists ((s, s') :: q). cbn. rewrite E1, E2. auto. }
  destruct H as (l' & E1 & E2 & G). subst runs. destruct (Permutation_map_inv _ _ P) as (l & E & Q). exists l, l'.
  split; [exact (Permutation_sym Q)|]. split; [exact E|]. split; [exact E2|]. intros x Hx. rewrite Forall_forall in G.
  apply G, (Permutation_in _ (Permutation_sym Q)), Hx.
Qed.

(** ** The times of all windows *)
Definition winrun : Type := ((R * R) * (nat * nat * nat))%type.
Definition run_times (p : winrun) : list R :=
  map (centre (A := RA) (fst (fst p)) (snd (fst p)) (snd (fst (snd p))) (snd (snd p))) (seq 0 (fst (fst (snd p)))).
Definition all_times (l : list winrun) : list R := concat (map run_times l).
Lemma all_times_len l : length (all_times l) = list_sum (map (fun p : winrun => fst (fst (snd p))) l).
Proof. unfold all_times. induction l as [|p l IH]; [reflexivity|]. cbn [map concat list_sum fold_right]. rewrite app_length, IH. unfold run_times. rewrite map_length, seq_length. reflexivity. Qed.

Definition win_of (s : sync RA R calibration) (x : outcome) : winrun := ((s_rate s, s_start s), snd (snd x)).
Definition windows_of (q : list outcome) : windows :=
  (map (fun w => fst (fst w)) (map snd (map snd q)), map (fun w => snd (fst w)) (map snd (map snd q)), map snd (map snd (map snd q))).
Lemma run_windows_eq (X : recordings) (side : pair -> sync RA R calibration) q : ss_signals X = map (fun x => side (fst x)) q ->
  run_windows (k := listK) X (windows_of q) = map (fun x => win_of (side (fst x)) x) q.
Proof.
  intros E. unfold run_windows, windows_of. change (@ss_signals (kA listK) R calibration X) with (@ss_signals RA R calibration X). rewrite E. clear E.
  induction q as [|[x [r [[n L] sh]]] q IH]; [reflexivity|]. cbn [map combine fst snd]. rewrite IH. reflexivity.
Qed.

Lemma coefficients_moved fo X X' f : wf_set X -> runs_moved X X' ->
  (exists cs w cs' w' n p, coefficients fo X f = Ok (cs, w) /\ coefficients fo X' f = Ok (cs', w') /\ Permutation p (seq 0 n) /\
     Forall (fun c => length c = n) cs /\ cs' = map (take_at (RtoC 0) p) cs /\
     exists W, length W = n /\ all_times (run_windows (k := listK) X w) = map fst W /\
       all_times (run_windows (k := listK) X' w') = map snd (take_at (0%R, 0%R) p W) /\ Forall (fun x => same_window X X' (fst x) (snd x)) W) \/
  (exists x x', coefficients fo X f = Err x /\ coefficients fo X' f = Err x').
Proof.
  intros W M. destruct (pairs_of X X' M) as (l & l' & P & EX & EX' & HS). unfold coefficients, set_fourier.
  change (mapM _ (ss_signals X)) with (mapM (four1 fo f) (ss_signals X)). change (mapM _ (ss_signals X')) with (mapM (four1 fo f) (ss_signals X')).
  assert (E : mapM (four1 fo f) (ss_signals X') = mapM (four1 fo f) (map fst l')).
  { rewrite EX'. assert (HS' : forall x, In x l' -> same_run (fst x) (snd x)) by (intros x Hx; apply HS, (Permutation_in _ (Permutation_sym P)), Hx).
    clear - HS'. induction l' as [|x l' IH]; [reflexivity|]. cbn [mapM map]. rewrite IH by (intros y Hy; apply HS'; right; exact Hy).
    rewrite (four1_same fo f _ _ (HS' x (or_introl eq_refl))). reflexivity. }
  rewrite E. destruct (mapM_perm (four2 fo f) _ _ P) as [(q & q' & E1 & E2 & Q)|[G1 G2]].
  2: { apply four2_err in G1 as (x & G1). apply four2_err in G2 as (x' & G2). rewrite <- EX in G1. rewrite G1, G2. right. cbn [bind]. eauto. }
  apply four2_ok in E1 as [E1 F1]. apply four2_ok in E2 as [E2 F2]. rewrite <- EX in E1. rewrite E1, E2. cbn [bind].
  destruct (map snd q) as [|r0 r1] eqn:Er.
  { destruct q; [|discriminate]. apply Permutation_nil in Q as ->. right. cbn. eauto. }
  destruct (map snd q') as [|r0' r1'] eqn:Er'; [exfalso; destruct q'; [|discriminate]; apply Permutation_sym, Permutation_nil in Q as ->; discriminate|].
  rewrite <- Er, <- Er' in *.
  left. set (nb := t_n (ss_tags X)). set (N := fun x : outcome => fst (fst (snd (snd x)))).
  assert (B : forall x, In x q -> length (fst (snd x)) = nb /\ forall c, c < nb -> length (column c (snd x)) = N x).
  { intros y Hy. destruct (mapM_In_r _ _ _ _ E1 (in_map snd _ _ Hy)) as (s & Hs & Es). destruct (ws_sync _ W s Hs) as [Sz Sc].
    destruct y as [pr [r [[Nw L] sh]]]. destruct (sync_fourier_spec (A := RA) r_tone Cmult r_dot (fun k : calibration => k) Cdiv s f _ _ _ r Nw L sh ltac:(congruence) Es) as (L1 & L2).
    cbn [fst snd]. split; [rewrite L1; apply (ws_chan _ W s Hs)|]. intros c Hc. unfold column, N. cbn [fst snd].
    destruct (nth_error r c) as [lc|] eqn:Ec.
    - rewrite (nth_error_nth _ _ _ Ec). apply (L2 _ _ Ec).
    - apply nth_error_None in Ec. rewrite L1, (ws_chan _ W s Hs) in Ec. fold nb in Ec. lia. }
  rewrite (zip_columns (map snd q) nb); [|rewrite Er; discriminate|intros x Hx; apply in_map_iff in Hx as (y & <- & Hy); apply B, Hy].
  rewrite (zip_columns (map snd q') nb); [|rewrite Er'; discriminate|intros x Hx; apply in_map_iff in Hx as (y & <- & Hy); apply B, (Permutation_in _ (Permutation_sym Q)), Hy].
  destruct (blocks N _ _ Q) as (p & Pp & Hp).
  do 4 eexists. exists (list_sum (map N q)), p. split; [reflexivity|]. split; [reflexivity|]. split; [exact Pp|].
  assert (Fc : forall c, In c (seq 0 nb) -> fits N q (fun x => column c (snd x))).
  { intros c Hc x Hx. apply in_seq in Hc. apply (B x Hx). lia. }
  split; [|split].
  - apply Forall_map, Forall_forall. intros c Hc. rewrite map_map. apply fits_len, Fc, Hc.
  - rewrite map_map. apply map_ext_in. intros c Hc. rewrite !map_map. apply Hp, Fc, Hc.
  - fold (windows_of q). fold (windows_of q'). rewrite (run_windows_eq X fst q), (run_windows_eq X' snd q').
    2: { rewrite EX', <- F2, map_map. reflexivity. }
    2: { rewrite EX, <- F1, map_map. reflexivity. }
    set (sel := fun x : outcome => combine (run_times (win_of (fst (fst x)) x)) (run_times (win_of (snd (fst x)) x))).
    assert (S1 : forall x, map fst (sel x) = run_times (win_of (fst (fst x)) x) /\ map snd (sel x) = run_times (win_of (snd (fst x)) x)).
    { intros x. unfold sel, run_times. cbn. clear. induction (seq 0 _) as [|j s [I1 I2]]; [auto|]. cbn [map combine fst snd]. rewrite I1, I2. auto. }
    assert (SL : fits N q sel).
    { intros x _. unfold sel. rewrite combine_length. unfold run_times. rewrite !map_length, !seq_length. apply Nat.min_id. }
    exists (concat (map sel q)). split; [apply fits_len, SL|]. split; [|split].
    + unfold all_times. rewrite concat_map, !map_map. f_equal. apply map_ext. intros x. symmetry. apply S1.
    + rewrite <- (Hp _ (0%R, 0%R) sel SL). unfold all_times. rewrite concat_map, !map_map. f_equal. apply map_ext. intros x. symmetry. apply S1.
    + apply Forall_forall. intros t Ht. apply in_concat in Ht as (b & Hb & Ht). apply in_map_iff in Hb as (x & <- & Hx).
      assert (Hpx : In (fst x) l) by (rewrite <- F1; apply in_map, Hx). exists (fst (fst x)), (snd (fst x)).
      split; [rewrite EX; apply in_map, Hpx|]. split; [rewrite EX'; apply in_map, (Permutation_in _ P), Hpx|]. pose proof (HS _ Hpx) as SR. split; [exact SR|].
      destruct SR as (_ & _ & SR). revert Ht. unfold sel, run_times, win_of. cbn [fst snd]. rewrite SR. clear.
      induction (seq 0 _) as [|j s IH]; cbn [map combine]; [intros []|]. intros [<-|Ht]; [|apply IH, Ht]. unfold centre. cbn. ring.
Qed.
