(** Estimates depend on nothing but the channels of the tags they work with. *)
From Verif Require Import Base BaseLemmas Arith OrdLaws TagsModel SyncModel SetModel SpecTags SpecSet FourierModel SpecFourier FourierProofs FourierSet MestModel UtilsModel SetProofs SpecSame.
Open Scope nat_scope.

Section Fourier.
Context {A : Arith} {V K C : Type}.
Variables (tone : num A -> nat -> nat -> C) (cmul : C -> C -> C) (cdot : list C -> list V -> C).
Variables (calib : K -> num A -> res (option C)) (cdiv : C -> C -> C).
Notation ttf := (time_to_freq tone cmul cdot).
Notation sfour := (sync_fourier tone cmul cdot calib cdiv).
Notation four := (set_fourier tone cmul cdot calib cdiv).
Notation runc := (run_coeffs tone cmul cdot calib cdiv).

Lemma ttf_same data data' n fs f Nper ov w r W : (forall y, In y data -> length y = n) -> (forall y, In y data' -> length y = n) -> data' <> [] ->
  ttf data fs f Nper ov w = Ok (r, W) -> exists r', ttf data' fs f Nper ov w = Ok (r', W).
Proof.
  intros Hn Hn' Hne H. destruct W as [[N L] sh]. apply time_to_freq_spec in H.
  destruct (spectrum_count _ _ _ _ _ _ _ _ _ _ _ _ _ H) as (Hs & _).
  destruct H as (size & nw & Hd & Hl & Hfs & Hdw & HN & o & x & Ho & Hx & Hall).
  assert (size = n) as ->. { destruct data as [|y data]; [congruence|]. rewrite <- (Hl y (or_introl eq_refl)). apply Hn. left. reflexivity. }
  assert (E : exists r', Forall2 (coeffs_of cdot x L sh) data' r').
  { assert (HL : L <= n).
    { destruct (discrete_window_pos _ _ _ _ _ _ _ Hdw) as (Hsh & Hnw & Hge).
      destruct (window_fits (Z.of_nat n) (Z.of_nat L) (Z.of_nat sh) nw) as (Hfit & _); lia || assumption. }
    clear Hne. induction data' as [|y data' IH]; [exists []; constructor|].
    destruct IH as (r' & Hr'); [intros z Hz; apply Hn'; right; exact Hz|].
    destruct (channel_coeffs_ok cdot x (Z.of_nat L) (Z.of_nat sh) y) as (l & _ & Hc); [rewrite (Hn' y (or_introl eq_refl)); lia|lia|].
    rewrite !Nat2Z.id in Hc. exists (l :: r'). constructor; assumption. }
  destruct E as (r' & Hr'). exists r'. apply time_to_freq_spec. exists n, nw. split; [exact Hne|]. split; [exact Hn'|]. split; [exact Hfs|]. split; [exact Hdw|].
  split; [exact HN|]. exists o, x. split; [exact Ho|]. split; [exact Hx|exact Hr'].
Qed.

Definition same_times (s s' : sync A V K) : Prop := s_rate s' = s_rate s /\ s_start s' = s_start s /\ s_size s' = s_size s.

Lemma sfour_same s s' f Nper ov w r W : sync_ok s -> sync_ok s' -> same_times s s' -> (forall c, In c (s_cal s') -> exists v, calib c f = Ok (Some v)) ->
  sfour s f Nper ov w = Ok (r, W) -> exists r', sfour s' f Nper ov w = Ok (r', W).
Proof.
  intros So So' (Er & _ & Es) Hk H. unfold sync_fourier in H. apply bind_ok in H as (cs & _ & H). apply bind_ok in H as (cals & _ & H).
  apply bind_ok in H as ([r0 W0] & H & E). injection E as _ ->.
  destruct (ttf_same _ (s_data s') (s_size s) _ _ _ _ _ _ _ (so_size _ So) ltac:(intros y Hy; rewrite (so_size _ So' y Hy); exact Es) (so_chan _ So') H) as (r' & H').
  destruct (proj2 (sync_fourier_ok tone cmul cdot calib cdiv s' f Nper ov w)) as ([r2 W2] & H2).
  { split; [exact Hk|]. rewrite Er. exists (r', W). exact H'. }
  exists r2. rewrite H2. unfold sync_fourier in H2. apply bind_ok in H2 as (cs' & _ & H2). apply bind_ok in H2 as (cals' & _ & H2).
  apply bind_ok in H2 as ([r3 W3] & H3 & E). injection E as <- <-. rewrite Er, H' in H3. injection H3 as _ ->. reflexivity.
Qed.

Lemma run_coeffs_unique f w (s s' : sync A V K) c c' g L sh part part' : s_rate s' = s_rate s -> is_seg s c g -> is_seg s' c' g ->
  runc f w s c L sh part -> runc f w s' c' L sh part' -> part = part'.
Proof.
  intros Er (G1 & G2 & _) (G1' & G2' & _) (g1 & v & o & x & (S1 & S2 & _) & Hv & Ho & Hx & H) (g1' & v' & o' & x' & (S1' & S2' & _) & Hv' & Ho' & Hx' & H').
  assert (g_vals g1 = g_vals g) as E1 by congruence. assert (g_vals g1' = g_vals g) as E1' by congruence.
  assert (v' = v) as -> by congruence.
  assert (o' = o) as ->.
  { pose proof (proj2 (eval_window_asked cdot w L o) Ho) as Q. pose proof (proj2 (eval_window_asked cdot w L o') Ho') as Q'. congruence. }
  rewrite Er in Hx'. rewrite (taper_unique tone cmul _ _ _ _ _ Hx' Hx) in H'.
  apply nth_error_ext. intros n. rewrite E1 in H. rewrite E1' in H'.
  destruct (nth_error part n) as [z|] eqn:E.
  - symmetry. apply H', H, E.
  - destruct (nth_error part' n) as [z|] eqn:E'; [|reflexivity]. apply H', H in E'. congruence.
Qed.

Lemma four_same (X Y : @sigset A V K) f Nper ov w coeffs W : wf_set X -> wf_set Y -> Forall2 same_times (ss_signals X) (ss_signals Y) -> calibrated calib Y f ->
  four X f Nper ov w = Ok (coeffs, W) -> exists coeffs', four Y f Nper ov w = Ok (coeffs', W).
Proof.
  intros WX WY HT Hk H. unfold set_fourier in *. apply bind_ok in H as (l & Hl & H).
  assert (E : exists l', mapM (fun s => sfour s f Nper ov w) (ss_signals Y) = Ok l' /\ map snd l' = map snd l).
  { pose proof (ws_sync _ WX) as SX. pose proof (ws_sync _ WY) as SY. unfold calibrated in Hk. clear WX WY H. revert l Hl SX SY Hk.
    induction HT as [|s s' ss ss' H1 HT IH]; intros l Hl SX SY Hk; simpl in Hl.
    - injection Hl as <-. exists []. split; reflexivity.
    - apply bind_ok in Hl as ([r W0] & Hr & Hl). apply bind_ok in Hl as (l0 & Hl0 & E). injection E as <-.
      destruct (IH l0 Hl0) as (l' & Hl' & El'); [intros z Hz; apply SX; right; exact Hz|intros z Hz; apply SY; right; exact Hz|intros z c Hz; apply Hk; right; exact Hz|].
      destruct (sfour_same s s' f Nper ov w r W0) as (r' & Hr'); [apply SX; left; reflexivity|apply SY; left; reflexivity|exact H1|intros c Hc; apply (Hk s' c (or_introl eq_refl) Hc)|exact Hr|].
      exists ((r', W0) :: l'). simpl. rewrite Hr'. simpl. rewrite Hl'. simpl. rewrite El'. split; reflexivity. }
  destruct E as (l' & -> & El'). simpl. destruct l as [|rw l]; [discriminate|]. destruct l' as [|rw' l']; [discriminate|].
  injection H as _ <-. eexists. rewrite El'. reflexivity.
Qed.

(** the same segments have the same coefficients *)
Lemma channel_same (X Y : @sigset A V K) f Nper ov w coeffs coeffs' W c c' gs : wf_set X -> wf_set Y ->
  four X f Nper ov w = Ok (coeffs, W) -> four Y f Nper ov w = Ok (coeffs', W) ->
  Forall2 (fun s g => is_seg s c g) (ss_signals X) gs -> Forall2 (fun s g => is_seg s c' g) (ss_signals Y) gs ->
  nth_error coeffs c = nth_error coeffs' c'.
Proof.
  intros WX WY HX HY GX GY. destruct W as [[Nws Ls] shs].
  destruct (set_fourier_spec _ _ _ _ _ X f Nper ov w coeffs Nws Ls shs WX HX) as (Lc & LN & _ & _ & Hl).
  destruct (set_fourier_spec _ _ _ _ _ Y f Nper ov w coeffs' Nws Ls shs WY HY) as (Lc' & LN' & _ & _ & Hl').
  assert (B : forall (Z : @sigset A V K) c co, ss_signals Z <> [] -> length co = nb_channels Z -> wf_set Z -> Forall2 (fun s g => is_seg s c g) (ss_signals Z) gs -> exists line : list C, nth_error co c = Some line).
  { intros Z d co Hne Hco WZ HG. destruct (ss_signals Z) as [|s ss] eqn:ES; [congruence|]. inversion HG as [|? g ? gs' (H1 & _) _]; subst.
    destruct (nth_error co d) as [line|] eqn:E; [exists line; reflexivity|]. apply nth_error_None in E.
    assert (d < length (s_data s)) by (apply nth_error_Some; congruence). unfold nb_channels, nb_channels_of in Hco. rewrite ES in Hco. lia. }
  assert (NX : ss_signals X <> []) by (intros E; rewrite (set_fourier_empty _ _ _ _ _ X f Nper ov w E) in HX; discriminate).
  assert (NY : ss_signals Y <> []) by (intros E; rewrite (set_fourier_empty _ _ _ _ _ Y f Nper ov w E) in HY; discriminate).
  destruct (B X c coeffs NX Lc WX GX) as (line & El). destruct (B Y c' coeffs' NY Lc' WY GY) as (line' & El'). rewrite El, El'. f_equal.
  destruct (Hl c line El) as (_ & parts & -> & Ep & HP). destruct (Hl' c' line' El') as (_ & parts' & -> & Ep' & HP'). f_equal.
  assert (Elen : length parts = length parts') by (rewrite <- (map_length (@length C) parts), <- (map_length (@length C) parts'), Ep, Ep'; reflexivity).
  apply nth_error_ext. intros i. destruct (nth_error parts i) as [p|] eqn:E1.
  - destruct (nth_error parts' i) as [p'|] eqn:E2; [|apply nth_error_None in E2; assert (i < length parts) by (apply nth_error_Some; congruence); lia].
    f_equal. destruct (HP i p E1) as (s & L & sh & Hs & HL & Hsh & R1). destruct (HP' i p' E2) as (s' & L' & sh' & Hs' & HL' & Hsh' & R2).
    rewrite HL in HL'. injection HL' as <-. rewrite Hsh in Hsh'. injection Hsh' as <-.
    destruct (Forall2_nth_error _ _ _ _ _ GX Hs) as (g & Hg & G1). destruct (Forall2_nth_error _ _ _ _ _ GY Hs') as (g' & Hg' & G2).
    rewrite Hg in Hg'. injection Hg' as <-.
    apply (run_coeffs_unique f w s s' c c' g L sh p p'); try assumption. destruct G1 as (_ & _ & G1 & _), G2 as (_ & _ & G2 & _). congruence.
  - apply nth_error_None in E1. symmetry. apply nth_error_None. lia.
Qed.
End Fourier.

Lemma Forall2_nth_intro {B D} (R : B -> D -> Prop) l l' : length l = length l' ->
  (forall p x y, nth_error l p = Some x -> nth_error l' p = Some y -> R x y) -> Forall2 R l l'.
Proof.
  revert l'. induction l as [|x l IH]; intros [|y l'] E H; try discriminate; constructor; [apply (H 0); reflexivity|].
  apply IH; [simpl in E; lia|]. intros p. apply (H (S p)).
Qed.

Section Tags.
Context {A : Arith} {V K : Type}.
Notation sigset := (@sigset A V K).

Lemma segs_exist (X : sigset) c : wf_set X -> c < t_n (ss_tags X) -> exists gs, Forall2 (fun s g => is_seg s c g) (ss_signals X) gs.
Proof.
  intros W Hc. pose proof (ws_sync _ W) as S1. pose proof (ws_chan _ W) as S2. clear W.
  induction (ss_signals X) as [|s ss IH]; [exists []; constructor|].
  destruct IH as (gs & Hgs); [intros z Hz; apply S1; right; exact Hz|intros z Hz; apply S2; right; exact Hz|].
  pose proof (S2 s (or_introl eq_refl)) as E. pose proof (so_cal _ (S1 s (or_introl eq_refl))) as E2.
  destruct (nth_error (s_data s) c) as [y|] eqn:Ey; [|apply nth_error_None in Ey; lia].
  destruct (nth_error (s_cal s) c) as [k|] eqn:Ek; [|apply nth_error_None in Ek; lia].
  exists (mkSeg (s_rate s) (s_start s) y k :: gs). constructor; [|exact Hgs]. repeat split; assumption.
Qed.
Lemma tracks_exist (X : sigset) t l p c : wf_set X -> reads (ss_tags X) t l -> nth_error l p = Some c -> exists gs, tracks X t p gs.
Proof.
  intros W Hr Hp. destruct (segs_exist X c W) as (gs & H); [exact (tv_range _ (ws_tags _ W) _ _ _ Hr (nth_error_In _ _ Hp))|].
  exists gs, l, c. auto.
Qed.
Lemma reads_unique (X : sigset) t l l' : wf_set X -> reads (ss_tags X) t l -> reads (ss_tags X) t l' -> l = l'.
Proof. intros W H H'. apply (In_dget _ _ _ (tv_unique _ (ws_tags _ W))) in H. apply (In_dget _ _ _ (tv_unique _ (ws_tags _ W))) in H'. congruence. Qed.
Lemma reads_get (X : sigset) t l : wf_set X -> t_get (ss_tags X) t = Ok l <-> reads (ss_tags X) t l.
Proof.
  intros W. unfold t_get, of_option. split.
  - destruct (dget t (ss_tags X).(t_dict)) as [l'|] eqn:E; [|discriminate]. intros [= <-]. apply dget_In, E.
  - intros H. rewrite (In_dget _ _ _ (tv_unique _ (ws_tags _ W)) H). reflexivity.
Qed.
Lemma get_missing (X : sigset) t x : t_get (ss_tags X) t = Err x -> x = KeyError.
Proof. unfold t_get, of_option. destruct (dget _ _); congruence. Qed.

(** position by position the same segments *)
Definition same_channel (X Y : sigset) (c c' : nat) : Prop :=
  exists gs, Forall2 (fun s g => is_seg s c g) (ss_signals X) gs /\ Forall2 (fun s g => is_seg s c' g) (ss_signals Y) gs.

Lemma agree_get (X Y : sigset) t : wf_set X -> wf_set Y -> agree X Y t ->
  match t_get (ss_tags X) t, t_get (ss_tags Y) t with
  | Ok l, Ok l' => length l = length l' /\ Forall2 (same_channel X Y) l l'
  | Err x, Err x' => x = x'
  | _, _ => False
  end.
Proof.
  intros WX WY (Hn & Ht). destruct (t_get (ss_tags X) t) as [l|x] eqn:EX, (t_get (ss_tags Y) t) as [l'|x'] eqn:EY.
  - apply reads_get in EX; [|exact WX]. apply reads_get in EY; [|exact WY].
    assert (EL : length l = length l').
    { destruct (proj1 (Hn (length l))) as (l2 & H2 & E2); [exists l; auto|]. rewrite (reads_unique Y t l' l2 WY EY H2). congruence. }
    split; [exact EL|]. apply Forall2_nth_intro; [exact EL|]. intros p c c' Hc Hc'.
    destruct (tracks_exist X t l p c WX EX Hc) as (gs & Hg). pose proof (proj1 (Ht p gs) Hg) as Hg'.
    destruct Hg as (l1 & c1 & R1 & P1 & F1). destruct Hg' as (l2 & c2 & R2 & P2 & F2).
    rewrite (reads_unique X t l1 l WX R1 EX) in P1. rewrite (reads_unique Y t l2 l' WY R2 EY) in P2.
    rewrite Hc in P1. injection P1 as <-. rewrite Hc' in P2. injection P2 as <-. exists gs. split; assumption.
  - apply reads_get in EX; [|exact WX]. destruct (proj1 (Hn (length l))) as (l2 & H2 & _); [exists l; auto|].
    apply (reads_get Y t l2 WY) in H2. congruence.
  - apply reads_get in EY; [|exact WY]. destruct (proj2 (Hn (length l'))) as (l2 & H2 & _); [exists l'; auto|].
    apply (reads_get X t l2 WX) in H2. congruence.
  - rewrite (get_missing _ _ _ EX), (get_missing _ _ _ EY). reflexivity.
Qed.

Lemma channel_times (X Y : sigset) c c' : wf_set X -> wf_set Y -> same_channel X Y c c' -> Forall2 same_times (ss_signals X) (ss_signals Y).
Proof.
  intros WX WY (gs & HX & HY). pose proof (ws_sync _ WX) as SX. pose proof (ws_sync _ WY) as SY. clear WX WY.
  revert HY SX SY. generalize (ss_signals Y). induction HX as [|s g ss gs (G1 & _ & G3 & G4) HX IH]; intros ss' HY SX SY; inversion HY as [|s' ? ss'' ? (G1' & _ & G3' & G4') HY']; subst; constructor.
  - split; [congruence|]. split; [congruence|]. rewrite <- (so_size _ (SX s (or_introl eq_refl)) _ (nth_error_In _ _ G1)), <- (so_size _ (SY s' (or_introl eq_refl)) _ (nth_error_In _ _ G1')). reflexivity.
  - apply IH; [exact HY'|intros z Hz; apply SX; right; exact Hz|intros z Hz; apply SY; right; exact Hz].
Qed.
Lemma times_sym (l l' : list (sync A V K)) : Forall2 same_times l l' -> Forall2 same_times l' l.
Proof. induction 1 as [|s s' l l' (H1 & H2 & H3) H IH]; constructor; [repeat split; congruence|exact IH]. Qed.
End Tags.

Section Impedance.
Context {k : Kern} (U : UK k) {V K St : Type}.
Notation A := (kA k).
Variables (tone : num A -> nat -> nat -> kE k) (cmul : kE k -> kE k -> kE k) (cdot : list (kE k) -> list V -> kE k).
Variables (calib : K -> num A -> res (option (kE k))) (cdiv : kE k -> kE k -> kE k) (Nper ov : num A) (w : window_arg (kE k)).
Notation fourier := (fun (X : @sigset A V K) f => set_fourier tone cmul cdot calib cdiv X f Nper ov w).

Lemma pick_same (X Y : @sigset A V K) f coeffs coeffs' W l l' : wf_set X -> wf_set Y -> fourier X f = Ok (coeffs, W) -> fourier Y f = Ok (coeffs', W) ->
  Forall2 (same_channel X Y) l l' -> mapM (fun i => nth_res coeffs i) l = mapM (fun i => nth_res coeffs' i) l'.
Proof.
  intros WX WY HX HY H. induction H as [|c c' l l' (gs & G & G') H IH]; [reflexivity|]. simpl. rewrite IH.
  unfold nth_res. rewrite (channel_same tone cmul cdot calib cdiv X Y f Nper ov w coeffs coeffs' W c c' gs WX WY HX HY G G'). reflexivity.
Qed.
Lemma windows_same (X Y : @sigset A V K) W : Forall2 same_times (ss_signals X) (ss_signals Y) -> run_windows X W = run_windows Y W.
Proof.
  intros H. unfold run_windows. destruct W as [[N L] sh]. f_equal. induction H as [|s s' l l' (H1 & H2 & _) H IH]; [reflexivity|]. simpl. rewrite IH, H1, H2. reflexivity.
Qed.

Lemma one_same (a : @iargs k St) (X Y : @sigset A V K) f st : wf_set X -> wf_set Y -> (forall t, used a t -> agree X Y t) -> calibrated calib X f -> calibrated calib Y f ->
  impedance_one U fourier a X f st = impedance_one U fourier a Y f st.
Proof.
  intros WX WY Hag KX KY. unfold impedance_one.
  pose proof (agree_get X Y _ WX WY (Hag (ia_elec a) (or_introl eq_refl))) as He.
  pose proof (agree_get X Y _ WX WY (Hag (ia_mag a) (or_intror (or_introl eq_refl)))) as Hb.
  destruct (t_get (ss_tags X) (ia_elec a)) as [es|x] eqn:EeX, (t_get (ss_tags Y) (ia_elec a)) as [es'|x'] eqn:EeY; try contradiction; [|subst; reflexivity].
  destruct (t_get (ss_tags X) (ia_mag a)) as [bs|x] eqn:EbX, (t_get (ss_tags Y) (ia_mag a)) as [bs'|x'] eqn:EbY; try contradiction; [|subst; reflexivity].
  simpl. destruct He as (Le & Fe), Hb as (Lb & Fb).
  set (RX := match remote_name a with None => Ok [] | Some r => t_get (ss_tags X) r end).
  set (RY := match remote_name a with None => Ok [] | Some r => t_get (ss_tags Y) r end).
  assert (Hr : match RX, RY with Ok l, Ok l' => length l = length l' /\ Forall2 (same_channel X Y) l l' | Err x, Err x' => x = x' | _, _ => False end).
  { unfold RX, RY. destruct (remote_name a) as [r|] eqn:Er; [|split; [reflexivity|constructor]].
    exact (agree_get X Y r WX WY (Hag r (or_intror (or_intror Er)))). }
  destruct RX as [rs|x] eqn:ERX, RY as [rs'|x'] eqn:ERY; try contradiction; [|subst; reflexivity]. simpl. rewrite <- Le, <- Lb, <- (proj1 Hr).
  assert (Nes : es <> []). { apply (tv_nonempty _ (ws_tags _ WX) (ia_elec a)), reads_get; assumption. }
  assert (HT : Forall2 same_times (ss_signals X) (ss_signals Y)).
  { inversion Fe as [|c c' l l' Hc Fe']; subst; [congruence|]. exact (channel_times X Y c c' WX WY Hc). }
  destruct (fourier X f) as [[coeffs W]|x] eqn:EX.
  2:{ destruct (fourier Y f) as [[coeffs' W]|x'] eqn:EY; [|reflexivity].
      destruct (four_same tone cmul cdot calib cdiv Y X f Nper ov w coeffs' W WY WX (times_sym _ _ HT) KX EY) as (c2 & E2). congruence. }
  destruct (four_same tone cmul cdot calib cdiv X Y f Nper ov w coeffs W WX WY HT KY EX) as (coeffs' & EY). rewrite EY.
  unfold impedance_coeffs. rewrite EeX, EeY, EbX, EbY. cbn [bind].
  rewrite (pick_same X Y f coeffs coeffs' W es es' WX WY EX EY Fe), (pick_same X Y f coeffs coeffs' W bs bs' WX WY EX EY Fb).
  assert (ER : match remote_name a with None => Ok None | Some r => x <- (idx <- t_get (ss_tags X) r ;; mapM (fun i => nth_res coeffs i) idx) ;; Ok (Some x) end =
               match remote_name a with None => Ok None | Some r => x <- (idx <- t_get (ss_tags Y) r ;; mapM (fun i => nth_res coeffs' i) idx) ;; Ok (Some x) end).
  { unfold RX in ERX; unfold RY in ERY. destruct (remote_name a) as [r|]; [|reflexivity]. rewrite ERX, ERY. cbn [bind]. rewrite (pick_same X Y f coeffs coeffs' W rs rs' WX WY EX EY (proj2 Hr)). reflexivity. }
  rewrite ER, (windows_same X Y W HT). reflexivity.
Qed.

Lemma results_same (a : @iargs k St) (X Y : @sigset A V K) l st : wf_set X -> wf_set Y -> (forall t, used a t -> agree X Y t) ->
  (forall f, In f l -> calibrated calib X f /\ calibrated calib Y f) -> impedance_results U fourier a X l st = impedance_results U fourier a Y l st.
Proof.
  intros WX WY Hag. revert st. induction l as [|f l IH]; intros st Hk; [reflexivity|]. simpl.
  rewrite (one_same a X Y f st WX WY Hag) by (apply Hk; left; reflexivity). destruct (impedance_one U fourier a Y f st) as [[r|x] st1]; [|reflexivity].
  rewrite IH; [reflexivity|]. intros g Hg. apply Hk. right. exact Hg.
Qed.
Theorem impedance_same (kone : K) (L : OrdLaws A) (a : @iargs k St) (X Y : @sigset A V K) l st : reach kone X -> reach kone Y -> (forall t, used a t -> agree X Y t) ->
  (forall f, In f l -> calibrated calib X f /\ calibrated calib Y f) -> impedance U fourier a X l st = impedance U fourier a Y l st.
Proof.
  intros HX HY Hag Hk. unfold impedance. rewrite (results_same a X Y l st); [reflexivity| | |exact Hag|exact Hk]; apply (reach_wf kone L); assumption.
Qed.
End Impedance.
