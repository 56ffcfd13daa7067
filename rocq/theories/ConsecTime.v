(** [merge_consecutive_runs]: blocks, data and times (exact arithmetic). *)
From Coq Require Import QArith Qcanon Lqa.
From Verif Require Import Base BaseLemmas SliceLemmas Arith OrdLaws QcLemmas TagsModel SpecTags TagsProofs
  SyncModel SetModel SpecSet SetProofs SpecSelect TrackProofs SelectProofs OrderProofs JoinProofs JoinOk
  SpecTime ExtractProofs ExtractSet ExcludeProofs SpecConsec GroupProofs MergeProofs MergeRuns MergeOk ConsecProofs ConsecSet.
Open Scope nat_scope.

Ltac qvar t := let x := fresh "q" in pose (x := (t : Qc)); change t with x; clearbody x.
Ltac qring := repeat match goal with
    | |- context [s_start ?r] => qvar (s_start r)
    | |- context [s_rate ?r] => qvar (s_rate r)
    end; match goal with |- @eq _ ?a ?b => change (@eq Qc a b) end; ring.

Section ConsecTime.
Context {V K : Type} (kone : K).
Notation sync := (sync QA V K).
Notation sigset := (@sigset QA V K).
Notation seg := (@seg QA V K).

(** ** blocks *)
Definition block_list (X : sigset) : list (list sync) := map (fun r => sub (ss_signals X) (fst r) (snd r)) (all_ranges X).

Lemma adjacent_nth {B} (l : list B) x y : adjacent l x y <-> exists i, nth_error l i = Some x /\ nth_error l (S i) = Some y.
Proof.
  split.
  - intros (l1 & l2 & ->). exists (length l1). split.
    + rewrite nth_error_app2, Nat.sub_diag by lia. reflexivity.
    + rewrite nth_error_app2 by lia. replace (S (length l1) - length l1) with 1 by lia. reflexivity.
  - intros (i & H1 & H2). apply nth_error_split in H1 as (l1 & l2 & -> & <-). rewrite nth_error_app2 in H2 by lia.
    replace (S (length l1) - length l1) with 1 in H2 by lia. destruct l2 as [|z l2]; [discriminate|]. injection H2 as ->. exists l1, l2. reflexivity.
Qed.
Lemma conn_follows (l : list sync) i : conn l i = true <-> exists r r', nth_error l i = Some r /\ nth_error l (S i) = Some r' /\ follows r r'.
Proof.
  split.
  - intros H. destruct (conn_inv l i H) as (r & r' & H1 & H2 & H3). apply followsb_iff in H3. eauto.
  - intros (r & r' & H1 & H2 & H3). unfold conn. rewrite H1, H2. apply followsb_iff, H3.
Qed.
Lemma sub_inv {B} (l : list B) x y k z : x <= y <= length l -> nth_error (sub l x y) k = Some z -> k < y - x /\ nth_error l (x + k) = Some z.
Proof.
  intros H Hk. assert (k < y - x) by (apply nth_error_Some_lt in Hk; rewrite sub_length in Hk by lia; exact Hk).
  split; [assumption|]. rewrite sub_nth in Hk by assumption. exact Hk.
Qed.
Lemma all_ranges_iff (X : sigset) x y : In (x, y) (all_ranges X) <-> maxrange (conn (ss_signals X)) 0 (nb_runs X) x y.
Proof. unfold all_ranges. rewrite ranges_spec. reflexivity. Qed.

Lemma blocks_of (X : sigset) : blocks (ss_signals X) (block_list X).
Proof.
  unfold block_list. split.
  - apply subs_concat.
  - intros b Hb E. apply in_map_iff in Hb as ([x y] & <- & Hxy). apply all_ranges_iff in Hxy. unfold maxrange, nb_runs in Hxy.
    apply (f_equal (@length _)) in E. cbn [fst snd] in E. rewrite sub_length in E by lia. simpl in E. lia.
  - intros b r r' Hb Hadj. apply in_map_iff in Hb as ([x y] & <- & Hxy). apply all_ranges_iff in Hxy. unfold maxrange in Hxy.
    apply adjacent_nth in Hadj as (i & H1 & H2). cbn [fst snd] in *. unfold nb_runs in Hxy.
    apply sub_inv in H1 as [H1 H1']; [|lia]. apply sub_inv in H2 as [H2 H2']; [|lia].
    assert (C : conn (ss_signals X) (x + i) = true) by (apply Hxy; lia).
    apply conn_follows in C as (a & a' & A1 & A2 & A3). replace (x + S i) with (S (x + i)) in H2' by lia. congruence.
  - intros b b' r r' (B1 & B2 & E) (b0 & Eb) (b1 & Eb') Hf. apply map_eq_app in E as (R1 & R2 & E & <- & E2).
    apply map_eq_cons in E2 as (p & R3 & -> & Ep & E3). apply map_eq_cons in E3 as (q & R4 & -> & Eq & _).
    pose proof (ranges_adj _ _ _ _ _ _ _ E) as Hpq.
    assert (Hp : maxrange (conn (ss_signals X)) 0 (nb_runs X) (fst p) (snd p)).
    { apply all_ranges_iff. rewrite E. destruct p. apply in_or_app. right. left. reflexivity. }
    assert (Hq : maxrange (conn (ss_signals X)) 0 (nb_runs X) (fst q) (snd q)).
    { apply all_ranges_iff. rewrite E. destruct q. apply in_or_app. right. right. left. reflexivity. }
    unfold maxrange, nb_runs in Hp, Hq. destruct Hp as (P1 & P2 & P3 & P4 & P5). destruct Hq as (Q1 & Q2 & _).
    destruct P5 as [P5|P5]; [lia|].
    assert (Hr : nth_error (ss_signals X) (snd p - 1) = Some r).
    { assert (L : length (sub (ss_signals X) (fst p) (snd p)) = snd p - fst p) by (apply sub_length; lia).
      assert (N : nth_error (sub (ss_signals X) (fst p) (snd p)) (snd p - fst p - 1) = Some r).
      { rewrite Ep, Eb. rewrite Ep, Eb, app_length in L. simpl in L. rewrite nth_error_app2 by lia.
        replace (snd p - fst p - 1 - length b0) with 0 by lia. reflexivity. }
      rewrite sub_nth in N by lia. rewrite <- N. f_equal. lia. }
    assert (Hr' : nth_error (ss_signals X) (snd p) = Some r').
    { assert (N : nth_error (sub (ss_signals X) (fst q) (snd q)) 0 = Some r') by (rewrite Eq, Eb'; reflexivity).
      rewrite sub_nth in N by lia. rewrite <- N. f_equal. lia. }
    assert (C : conn (ss_signals X) (snd p - 1) = true); [|congruence]. apply conn_follows. exists r, r'.
    split; [exact Hr|]. split; [|exact Hf]. rewrite <- Hr'. f_equal. lia.
Qed.

Lemma fits_blocks (X : sigset) ms : Forall2 (fits X) (all_ranges X) ms -> Forall2 glued (block_list X) ms.
Proof.
  unfold block_list. generalize (all_ranges X). intros R H. induction H as [|p m R ms [_ H] _ IH]; simpl; constructor; assumption.
Qed.

(** ** displacement *)
Lemma block_chain (X : sigset) b r r' : In b (block_list X) -> adjacent b r r' -> follows r r'.
Proof. apply (bl_inside _ _ (blocks_of X)). Qed.

Lemma abs_le_add x y b d : abs_le x b -> abs_le y d -> abs_le (x + y)%Qc (b + d)%Qc.
Proof. unfold abs_le. intros [H1 H2] [H3 H4]. split; qlra'. Qed.
Lemma time_off s r i j : pos r -> (s + ZtoQc (i + j) / r)%Qc = (s + ZtoQc i / r + ZtoQc j / r)%Qc.
Proof. intros H. symmetry. apply time_shift, H. Qed.

(** the clock of the first run, [n] samples further, against the clock of the last one *)
Lemma clock ρ : pos ρ -> forall l (r0 : sync) r l0, l = l0 ++ [r] -> hd_error l = Some r0 ->
  (forall x, In x l -> s_rate x = ρ) -> (forall x y, adjacent l x y -> follows x y) ->
  exists d, slack l d /\ forall j,
    abs_le (s_start r0 + ZtoQc (Z.of_nat (list_sum (map s_size l0)) + j) / ρ - (s_start r + ZtoQc j / ρ))%Qc d.
Proof.
  intros Hρ. induction l as [|a l IH]; intros r0 r l0 E Hh Hr Hf; [discriminate|]. injection Hh as ->.
  destruct l as [|b l].
  - destruct l0 as [|? [|? ?]]; try discriminate. injection E as ->. exists (Q2Qc 0). split; [constructor|]. intros j. simpl.
    split; qlra'.
  - destruct l0 as [|? l0]; [discriminate|]. injection E as <- E.
    destruct (IH b r l0 E eq_refl) as (d & Hd & Hj).
    { intros x Hx. apply Hr. right. exact Hx. }
    { intros x y (l1 & l2 & Exy). apply Hf. exists (r0 :: l1), l2. rewrite Exy. reflexivity. }
    destruct (Hf r0 b) as [Eρ (t & Ht & Ha)]; [exists [], l; reflexivity|].
    exists (t + d)%Qc. split; [constructor; assumption|]. intros j. specialize (Hj j).
    assert (Er : s_rate r0 = ρ) by (apply Hr; left; reflexivity).
    pose proof (abs_le_add _ _ _ _ Ha Hj) as G.
    assert (Q : (period r0 - gap r0 b + (s_start b + ZtoQc (Z.of_nat (list_sum (map s_size l0)) + j) / ρ - (s_start r + ZtoQc j / ρ)))%Qc =
                (s_start r0 + ZtoQc (Z.of_nat (list_sum (map s_size (r0 :: l0))) + j) / ρ - (s_start r + ZtoQc j / ρ))%Qc).
    { unfold period, gap, last_time, sample_time. cbn [nadd ndiv nofZ QA]. rewrite Er. cbn [map list_sum fold_right]. 
      change (fold_right Nat.add 0 (map s_size l0)) with (list_sum (map s_size l0)).
      replace (Z.of_nat (s_size r0 + list_sum (map s_size l0)) + j)%Z with (1 + ((Z.of_nat (s_size r0) - 1) + (Z.of_nat (list_sum (map s_size l0)) + j)))%Z by lia.
      rewrite !(ZtoQc_add). change (ZtoQc 1) with (Q2Qc 1).
      unfold Qcdiv. qring. }
    rewrite Q in G. exact G.
Qed.

Lemma chain_prefix {B} (b1 b2 : list B) x (R : B -> B -> Prop) : (forall u v, adjacent (b1 ++ x :: b2) u v -> R u v) ->
  forall u v, adjacent (b1 ++ [x]) u v -> R u v.
Proof.
  intros H u v (l1 & l2 & E). apply H. exists l1, (l2 ++ b2).
  replace (b1 ++ x :: b2) with ((b1 ++ [x]) ++ b2) by (rewrite <- app_assoc; reflexivity). rewrite E, <- app_assoc. reflexivity.
Qed.

Lemma glued_displaced (b : list sync) (s : sync) : glued b s -> (forall r, In r b -> pos (s_rate r)) ->
  (forall x y, adjacent b x y -> follows x y) -> displaced b s.
Proof.
  intros (r0 & b0 & Eb & Hs & _ & Hr & _) Hp Hf b1 r b2 j E.
  assert (Hρ : pos (s_rate s)).
  { rewrite (Hr r0) by (rewrite Eb; left; reflexivity). apply Hp. rewrite Eb. left. reflexivity. }
  assert (Hh : hd_error (b1 ++ [r]) = Some r0).
  { rewrite Eb in E. destruct b1 as [|z b1]; injection E as -> _; reflexivity. }
  destruct (clock (s_rate s) Hρ (b1 ++ [r]) r0 r b1 eq_refl Hh) as (d & Hd & Hj).
  { intros x Hx. symmetry. apply Hr. rewrite E. apply in_app_or in Hx as [Hx|[<-|[]]]; apply in_or_app; [left; exact Hx|right; left; reflexivity]. }
  { apply (chain_prefix b1 b2 r). rewrite <- E. exact Hf. }
  exists d. split; [exact Hd|]. specialize (Hj j). unfold sample_time. cbn [nadd ndiv nofZ QA]. rewrite Hs.
  rewrite <- (Hr r) by (rewrite E; apply in_or_app; right; left; reflexivity). exact Hj.
Qed.

(** ** exact gaps: nothing moves *)
Lemma clock_exact ρ : pos ρ -> forall l (r0 : sync) r l0, l = l0 ++ [r] -> hd_error l = Some r0 ->
  (forall x, In x l -> s_rate x = ρ) -> (forall x y, adjacent l x y -> follows_exactly x y) ->
  forall j, (s_start r0 + ZtoQc (Z.of_nat (list_sum (map s_size l0)) + j) / ρ)%Qc = (s_start r + ZtoQc j / ρ)%Qc.
Proof.
  intros Hρ. induction l as [|a l IH]; intros r0 r l0 E Hh Hr Hf j; [discriminate|]. injection Hh as ->.
  destruct l as [|b l].
  - destruct l0 as [|? [|? ?]]; try discriminate. injection E as ->. reflexivity.
  - destruct l0 as [|? l0]; [discriminate|]. injection E as <- E.
    assert (I : (s_start b + ZtoQc (Z.of_nat (list_sum (map s_size l0)) + j) / ρ)%Qc = (s_start r + ZtoQc j / ρ)%Qc).
    { apply IH; [exact E|reflexivity| |]. { intros x Hx. apply Hr. right. exact Hx. }
      intros x y (l1 & l2 & Exy). apply Hf. exists (r0 :: l1), l2. rewrite Exy. reflexivity. }
    rewrite <- I. destruct (Hf r0 b) as [Eρ Hg]; [exists [], l; reflexivity|].
    assert (Er : s_rate r0 = ρ) by (apply Hr; left; reflexivity).
    unfold gap, period, last_time, sample_time in Hg. cbn [nadd ndiv nofZ QA] in Hg. rewrite Er in Hg.
    assert (Eb : (s_start b = s_start r0 + ZtoQc (Z.of_nat (s_size r0) - 1) / ρ + Q2Qc 1 / ρ)%Qc).
    { rewrite <- Hg. qring. }
    rewrite Eb. cbn [map list_sum fold_right]. change (fold_right Nat.add 0 (map s_size l0)) with (list_sum (map s_size l0)).
    replace (Z.of_nat (s_size r0 + list_sum (map s_size l0)) + j)%Z with (1 + ((Z.of_nat (s_size r0) - 1) + (Z.of_nat (list_sum (map s_size l0)) + j)))%Z by lia.
    rewrite !(ZtoQc_add). change (ZtoQc 1) with (Q2Qc 1). unfold Qcdiv. qring.
Qed.

(** ** segments *)
Definition stamped (s ρ : Qc) (a : nat) (vs : list V) : list (Qc * V) :=
  map (fun iv => ((s + ZtoQc (Z.of_nat (fst iv)) / ρ)%Qc, snd iv)) (combine (seq a (length vs)) vs).
Lemma stamped_app s ρ u v : forall a, stamped s ρ a (u ++ v) = stamped s ρ a u ++ stamped s ρ (a + length u) v.
Proof.
  unfold stamped. induction u as [|x u IH]; intros a; simpl; [rewrite Nat.add_0_r; reflexivity|]. f_equal. rewrite IH.
  replace (S a + length u) with (a + S (length u)) by lia. reflexivity.
Qed.
Lemma stamped_shift s s' ρ n v : pos ρ -> s' = (s + ZtoQc (Z.of_nat n) / ρ)%Qc -> stamped s ρ n v = stamped s' ρ 0 v.
Proof.
  intros Hρ Hs. assert (G : forall v a, stamped s ρ (n + a) v = stamped s' ρ a v).
  { unfold stamped. induction v0 as [|x v0 IH]; intros a; [reflexivity|]. cbn [length seq combine map fst snd]. f_equal.
    - f_equal. rewrite Hs, Nat2Z.inj_add. symmetry. apply time_shift, Hρ.
    - rewrite <- IH. f_equal. f_equal. f_equal. lia. }
  rewrite <- G. rewrite Nat.add_0_r. reflexivity.
Qed.

Lemma follows_exactly_start (r r' : sync) : follows_exactly r r' -> pos (s_rate r) ->
  s_start r' = (s_start r + ZtoQc (Z.of_nat (s_size r)) / s_rate r)%Qc.
Proof.
  intros [_ Hg] Hp. unfold gap, period, last_time, sample_time in Hg. cbn [nadd ndiv nofZ QA] in Hg.
  assert (Eb : (s_start r' = s_start r + ZtoQc (Z.of_nat (s_size r) - 1) / s_rate r + Q2Qc 1 / s_rate r)%Qc).
  { rewrite <- Hg. qring. }
  rewrite Eb. replace (Z.of_nat (s_size r)) with ((Z.of_nat (s_size r) - 1) + 1)%Z at 2 by lia.
  rewrite ZtoQc_add. change (ZtoQc 1) with (Q2Qc 1). unfold Qcdiv. qring.
Qed.

Lemma stamped_chain c ρ : pos ρ -> forall (b : list sync) r0 b0 gs, b = r0 :: b0 -> (forall r, In r b -> sync_ok r) ->
  (forall r, In r b -> s_rate r = ρ) -> (forall x y, adjacent b x y -> follows_exactly x y) ->
  Forall2 (fun r g => is_seg r c g) b gs ->
  stamped (s_start r0) ρ 0 (concat (map g_vals gs)) = concat (map (@seg_samples QA V K) gs).
Proof.
  intros Hρ. induction b as [|r b IH]; intros r0 b0 gs E Hok Hr Hf Hg; [discriminate|]. injection E as -> ->.
  inversion Hg as [|? g ? gs' Hg0 Hgs]; subst. cbn [map concat]. destruct Hg0 as (D & _ & R & S).
  assert (L : length (g_vals g) = s_size r0).
  { apply (so_size r0 (Hok r0 (or_introl eq_refl))). eapply nth_error_In; eauto. }
  assert (E0 : stamped (s_start r0) ρ 0 (g_vals g) = seg_samples g).
  { unfold stamped, seg_samples. cbn [nadd ndiv nofZ QA]. rewrite R, S, (Hr r0) by (left; reflexivity). reflexivity. }
  rewrite stamped_app, E0. f_equal. rewrite L. destruct b0 as [|r1 b1].
  - inversion Hgs; subst. reflexivity.
  - rewrite (stamped_shift (s_start r0) (s_start r1) ρ); [|exact Hρ|].
    + apply (IH r1 b1); [reflexivity| | | |exact Hgs].
      * intros; apply Hok; right; assumption.
      * intros; apply Hr; right; assumption.
      * intros x y (l1 & l2 & E). apply Hf. exists (r0 :: l1), l2. rewrite E. reflexivity.
    + simpl. rewrite <- (Hr r0) by (left; reflexivity). apply follows_exactly_start.
      * apply Hf. exists [], b1. reflexivity.
      * rewrite (Hr r0) by (left; reflexivity). exact Hρ.
Qed.

Lemma glued_seg (b : list sync) (s : sync) c gs : glued b s -> sync_ok s -> (forall r, In r b -> sync_ok r) ->
  Forall2 (fun r g => is_seg r c g) b gs ->
  exists g, is_seg s c g /\ g_vals g = concat (map g_vals gs).
Proof.
  intros (r0 & b0 & Eb & Hs & Hc & Hr & HL & _ & HD) Hok Hb Hg.
  assert (Hlt : c < length (s_data s)).
  { rewrite HL. rewrite Eb in Hg. inversion Hg as [|? g ? ? (D & _) _]; subst. eapply nth_error_Some_lt; eauto. }
  destruct (is_seg_exists s c Hok Hlt) as [g Hsg]. exists g. split; [exact Hsg|].
  destruct (HD c (g_vals g)) as (ds & F & ->); [apply Hsg|]. f_equal.
  clear - F Hg. revert gs Hg. induction F as [|r e b ds He _ IH]; intros gs Hg; inversion Hg as [|? g ? gs' (D & _) Hgs]; subst; [reflexivity|].
  simpl. f_equal; [congruence|]. apply IH, Hgs.
Qed.

Lemma Forall2_concat_inv {B C} (R : B -> C -> Prop) bs : forall l, Forall2 R (concat bs) l ->
  exists ls, l = concat ls /\ Forall2 (Forall2 R) bs ls.
Proof.
  induction bs as [|b bs IH]; intros l H; simpl in H.
  - inversion H; subst. exists []. split; [reflexivity|constructor].
  - apply Forall2_app_inv_l in H as (l1 & l2 & H1 & H2 & ->). destruct (IH l2 H2) as (ls & -> & F). exists (l1 :: ls). split; [reflexivity|constructor; assumption].
Qed.

(** what a tag reads after merging *)
Theorem mcr_tracks (X Y : sigset) k p gs : wf_set X -> distinct_starts (ss_signals X) -> merge_consecutive_runs kone X = Ok Y ->
  tracks X k p gs -> exists gs', tracks Y k p gs' /\ concat (map g_vals gs') = concat (map g_vals gs) /\
    (positive_rates X -> exact_gaps X -> concat (map (@seg_samples QA V K) gs') = concat (map (@seg_samples QA V K) gs)).
Proof.
  intros HX Hd H (l & c & Hl & Hp & Hg). destruct (mcr_result kone X Y HX Hd H) as [F Ed].
  assert (Hok : forall s, In s (ss_signals Y) -> sync_ok s).
  { intros s Hs. destruct (Forall2_In_r' _ _ _ _ F Hs) as (xy & _ & Ho & _). exact Ho. }
  apply fits_blocks in F. pose proof (blocks_of X) as B. rewrite <- (bl_all _ _ B) in Hg.
  apply Forall2_concat_inv in Hg as (gss & -> & Hg).
  assert (Hbok : forall b r, In b (block_list X) -> In r b -> In r (ss_signals X)).
  { intros b r Hb Hr. rewrite <- (bl_all _ _ B). apply in_concat. eauto. }
  assert (Hin : forall b x y, In b (block_list X) -> adjacent b x y -> follows x y) by apply (bl_inside _ _ B).
  assert (G : exists gs', Forall2 (fun s g => is_seg s c g) (ss_signals Y) gs' /\
            concat (map g_vals gs') = concat (map g_vals (concat gss)) /\
            (positive_rates X -> exact_gaps X -> concat (map (@seg_samples QA V K) gs') = concat (map (@seg_samples QA V K) (concat gss)))).
  { assert (Hadj : forall b x y, In b (block_list X) -> adjacent b x y -> adjacent (ss_signals X) x y).
    { intros b x y Hb (l1 & l2 & E). apply in_split in Hb as (B1 & B2 & EB). rewrite <- (bl_all _ _ B), EB, concat_app. cbn [concat].
      rewrite E. exists (concat B1 ++ l1), (l2 ++ concat B2). rewrite <- !app_assoc. reflexivity. }
    clear B Hp Hl. revert gss Hg Hbok Hin Hadj. induction F as [|b s bs ss Hb Hbs IH]; intros gss Hg Hbok Hin Hadj.
    - inversion Hg; subst. exists []. split; [constructor|]. split; [reflexivity|]. reflexivity.
    - inversion Hg as [|? g1 ? gss' Hg1 Hgs]; subst.
      destruct (IH (fun s Hs => Hok s (or_intror Hs)) gss' Hgs) as (gs' & I1 & I2 & I3).
      { intros b' r Hb' Hr. apply (Hbok b' r); [right; exact Hb'|exact Hr]. }
      { intros b' x y Hb'. apply Hin. right. exact Hb'. }
      { intros b' x y Hb'. apply Hadj. right. exact Hb'. }
      assert (Hok1 : forall r, In r b -> sync_ok r) by (intros r Hr; apply (ws_sync X HX), (Hbok b); [left; reflexivity|exact Hr]).
      destruct (glued_seg b s c g1 Hb (Hok s (or_introl eq_refl)) Hok1 Hg1) as (g & S1 & S2).
      exists (g :: gs'). split; [constructor; assumption|]. cbn [map concat]. rewrite !map_app, !concat_app. split; [congruence|].
      intros Hpos Hex. rewrite (I3 Hpos Hex). f_equal.
      destruct Hb as (r0 & b0 & Eb & Hs0 & _ & Hr & _).
      assert (Hρ : pos (s_rate s)).
      { rewrite (Hr r0) by (rewrite Eb; left; reflexivity). apply Hpos, (Hbok b); [left; reflexivity|rewrite Eb; left; reflexivity]. }
      rewrite <- (stamped_chain c (s_rate s) Hρ b r0 b0 g1 Eb Hok1); [| | |exact Hg1].
      + unfold stamped, seg_samples. destruct S1 as (_ & _ & R1 & R2). cbn [nadd ndiv nofZ QA]. rewrite R1, R2, Hs0, S2. reflexivity.
      + intros r Hr'. symmetry. apply Hr, Hr'.
      + intros x y Hxy. apply Hex; [apply (Hadj b)|apply (Hin b)]; try (left; reflexivity); exact Hxy. }
  destruct G as (gs' & G1 & G2). exists gs'. split; [|exact G2]. exists l, c. unfold reads. rewrite Ed. auto.
Qed.

Theorem mcr_blocks (X Y : sigset) : wf_set X -> distinct_starts (ss_signals X) -> merge_consecutive_runs kone X = Ok Y ->
  exists bs, blocks (ss_signals X) bs /\ Forall2 glued bs (ss_signals Y) /\ t_dict (ss_tags Y) = t_dict (ss_tags X).
Proof.
  intros HX Hd H. destruct (mcr_result kone X Y HX Hd H) as [F Ed]. exists (block_list X).
  split; [apply blocks_of|]. split; [apply fits_blocks, F|exact Ed].
Qed.
Theorem mcr_displaced (X Y : sigset) : wf_set X -> positive_rates X -> distinct_starts (ss_signals X) -> merge_consecutive_runs kone X = Ok Y ->
  exists bs, blocks (ss_signals X) bs /\ Forall2 (fun b s => glued b s /\ displaced b s) bs (ss_signals Y).
Proof.
  intros HX Hp Hd H. destruct (mcr_result kone X Y HX Hd H) as [F Ed]. exists (block_list X).
  split; [apply blocks_of|]. apply fits_blocks in F. pose proof (blocks_of X) as B.
  assert (G : forall b s, In b (block_list X) -> glued b s -> displaced b s).
  { intros b s Hb Hg. apply glued_displaced; [exact Hg| |].
    - intros r Hr. apply Hp. rewrite <- (bl_all _ _ B). apply in_concat. eauto.
    - intros x y. apply (bl_inside _ _ B). exact Hb. }
  clear - F G. induction F as [|b s bs ss Hb _ IH]; constructor.
  - split; [exact Hb|]. apply G; [left; reflexivity|exact Hb].
  - apply IH. intros; apply G; [right; assumption|assumption].
Qed.
End ConsecTime.
