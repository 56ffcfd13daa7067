(** Prefilters, silent failures, shapes, rejected windows (C55-C60). *)
From Verif Require Import Base BaseLemmas Arith TagsModel SyncModel SetModel FourierModel MestModel SpecMest MestProofs MestRun UtilsModel SpecUtils.

(** ** Unions *)
Lemma zinsert_In l x : In x (zinsert l) <-> In x l.
Proof. unfold zinsert. rewrite sort_In. apply (In_dedup _ Z.eqb_eq). Qed.

Lemma zinsert_sorted l : StronglySorted Z.lt (zinsert l).
Proof.
  unfold zinsert. pose proof (NoDup_dedup _ Z.eqb_eq l) as N.
  pose proof (sort_perm Z.ltb (dedup Z.eqb l)) as P.
  assert (S : StronglySorted (fun x y => Z.ltb y x = false) (stable_sort Z.ltb (dedup Z.eqb l))).
  { apply sort_sorted with (P := fun _ => True); [intros x y _ _|intros x y z _ _ _|apply Forall_forall; auto];
    rewrite ?Z.ltb_lt, ?Z.ltb_ge; lia. }
  apply (Permutation_NoDup P) in N. clear P.
  revert N S. generalize (stable_sort Z.ltb (dedup Z.eqb l)). clear. induction l as [|x l IH]; intros N S; constructor.
  - inversion N; inversion S; subst. auto.
  - inversion N as [|? ? N1 N2]; inversion S as [|? ? S1 S2]; subst. rewrite Forall_forall in *. intros y Hy. specialize (S2 y Hy).
    apply Z.ltb_ge in S2. assert (x <> y) by (intros ->; contradiction). lia.
Qed.

Lemma union1d_In a b x : In x (union1d a b) <-> In x a \/ In x b.
Proof. unfold union1d. rewrite zinsert_In. apply in_app_iff. Qed.

Lemma merged_In ivs x : In x (merged ivs) <-> exists iv, In iv ivs /\ In x iv.
Proof.
  unfold merged. enough (H : forall ivs acc, In x (fold_left union1d ivs acc) <-> In x acc \/ exists iv, In iv ivs /\ In x iv).
  { rewrite H. simpl. intuition. }
  clear. induction ivs as [|iv ivs IH]; intros acc; simpl.
  - split; [auto|]. intros [H|(iv & [] & _)]. exact H.
  - rewrite IH, union1d_In. split.
    + intros [[H|H]|(i & H1 & H2)]; [auto|right; exists iv; auto|right; exists i; auto].
    + intros [H|(i & [->|H1] & H2)]; [auto|auto|right; exists i; auto].
Qed.

(** ** Solutions of M-estimates come from the solver *)
Lemma filter_combine_len {S T} (f : nat -> bool) (l : list S) (l' : list T) : length l = length l' -> forall a,
  length (filter (fun p => f (fst p)) (combine (seq a (length l)) l)) = length (filter (fun p => f (fst p)) (combine (seq a (length l')) l')).
Proof.
  revert l'. induction l as [|x l IH]; intros [|y l'] H a; try discriminate; [reflexivity|]. simpl. injection H as H.
  destruct (f a); simpl; rewrite (IH l' H (Datatypes.S a)); reflexivity.
Qed.

Lemma eliminate_len {S T} (l : list S) (l' : list T) idx r r' : length l = length l' -> eliminate l idx = Ok r -> eliminate l' idx = Ok r' -> length r = length r'.
Proof.
  intros H. destruct idx as [|j idx]; [intros [= <-] [= <-]; exact H|]. unfold eliminate, np_delete.
  intros E E'. apply bind_ok in E as ([] & _ & [= <-]). apply bind_ok in E' as ([] & _ & [= <-]).
  rewrite !map_length. unfold enum.
  etransitivity; [exact (filter_combine_len (fun i => negb (designated (length l) (j :: idx) i)) l l' H 0)|]. rewrite H. reflexivity.
Qed.

Lemma eliminate_incl {T} (l : list T) idx r : eliminate l idx = Ok r -> incl r l.
Proof.
  destruct idx as [|j idx]; [intros [= <-] x Hx; exact Hx|]. unfold eliminate, np_delete. intros E.
  apply bind_ok in E as ([] & _ & [= <-]). intros x Hx. apply in_map_iff in Hx as ([n y] & <- & Hy). apply filter_In in Hy as [Hy _].
  apply in_combine_r in Hy. exact Hy.
Qed.

Section Rows.
Context {k : Kern} {St : Type}.

Lemma iterate_solved o wf e b fuel : forall it r iv v (st : St) z iv' st',
  iterate o wf e b fuel it r iv v st = (Ok (z, iv'), st') -> exists w, k_wlse k e b w = Ok z.
Proof.
  induction fuel as [|fuel IH]; intros it r iv v st z iv' st'; simpl; [discriminate|].
  destruct (eval_weight (o_eps o) wf it r e b iv st) as [[[w iv1]|x] st1]; [|discriminate].
  destruct (solve e b w) as [z1|x] eqn:Es; [|discriminate]. apply solve_ok in Es as [_ Es].
  destruct (converged _ _ _); [intros [= <- <- <-]; eauto|apply IH].
Qed.

Lemma m_estimate_solved o e b z0 ow iv (st : St) z iv' st' : m_estimate o e b z0 ow iv st = (Ok (z, iv'), st') -> exists w, k_wlse k e b w = Ok z.
Proof.
  unfold m_estimate. destruct ow as [wf|].
  - destruct z0 as [z0|]; [|discriminate]. apply iterate_solved.
  - intros [= H _]. apply bind_ok in H as (w & H1 & H). apply bind_ok in H as (z1 & H2 & [= <- <-]). apply solve_ok in H2 as [_ H2]. eauto.
Qed.

Lemma chain_solved o ws : forall e b z ii (st : St) zf l st', length e = length b ->
  chain o e b ws z ii st = (Ok (zf, l), st') -> (ws = [] /\ zf = z) \/ exists z', zf = Some z' /\ solved (k := k) b z'.
Proof.
  induction ws as [|w ws IH]; intros e b z ii st zf l st' Hl; simpl; [intros [= <- _ _]; auto|].
  destruct (bind (eliminate e ii) _) as [[e2 b2]|x] eqn:E; [|discriminate].
  apply bind_ok in E as (e2' & E1 & E). apply bind_ok in E as (b2' & E2 & E). apply bind_ok in E as ([] & E3 & [= -> ->]).
  apply check_ok in E3. pose proof (eliminate_len _ _ _ _ _ Hl E1 E2) as Hl2. apply eliminate_incl in E2.
  destruct (m_estimate o e2 b2 z w [] st) as [[[z1 ii1]|x] st1] eqn:Em; [|discriminate].
  destruct (chain o e2 b2 ws (Some z1) ii1 st1) as [[[z2 l2]|x] st2] eqn:Ec; simpl; [|discriminate]. intros [= <- _ _]. right.
  apply IH in Ec; [|exact Hl2]. apply m_estimate_solved in Em as [w' Em].
  assert (Hb2 : b2 <> []) by (intros ->; rewrite Hl2 in E3; discriminate).
  destruct Ec as [[_ ->]|(z' & -> & e' & b' & w'' & I & Hne & Hs)].
  - exists z1. split; [reflexivity|]. exists e2, b2, w'. auto.
  - exists z'. split; [reflexivity|]. exists e', b', w''. split; [intros y Hy; apply E2, I, Hy|auto].
Qed.

Lemma each_output_solved o b ws outs : forall inits ivs (st : St) rs st',
  length inits = length outs -> length ivs = length outs -> Forall (fun e => length e = length b) outs ->
  each_output o b ws outs inits ivs st = (Ok rs, st') ->
  length rs = length outs /\ (ws <> [] -> Forall (fun r => exists z, fst r = Some z /\ solved (k := k) b z) rs).
Proof.
  induction outs as [|e outs IH]; intros [|z0 inits] [|iv ivs] st rs st' H1 H2 Hl; try discriminate; simpl.
  - intros [= <- _]. auto.
  - destruct iv as [iv|x]; [|discriminate]. inversion Hl as [|? ? Hle Hlo]; subst.
    destruct (chain o e b ws z0 iv st) as [[[z l]|x] st1] eqn:Ec; simpl; [|discriminate].
    destruct (merge_invalid_indices l) as [m|x]; simpl; [|discriminate].
    destruct (each_output o b ws outs inits ivs st1) as [[rs1|x] st2] eqn:Ee; simpl; [|discriminate]. intros [= <- _].
    apply IH in Ee as [E1 E2]; [|simpl in *; congruence|simpl in *; congruence|exact Hlo]. simpl. split; [congruence|].
    intros Hw. constructor; [|auto]. apply chain_solved in Ec as [[G _]|(z' & -> & Hs)]; [congruence| |exact Hle]. simpl. eauto.
Qed.

Lemma transfer_function_solved o outs b ws iv (st : St) rs st' :
  transfer_function o outs b ws None iv st = (Ok rs, st') ->
  length rs = length outs /\ Forall (fun e => length e = length b) outs /\
  (ws <> [] -> Forall (fun r => exists z, fst r = Some z /\ solved (k := k) b z) rs).
Proof.
  unfold transfer_function. destruct (bind (iv_each (length outs) iv) _) as [[ivs inits]|x] eqn:E; [|discriminate].
  apply bind_ok in E as (ivs' & E1 & E). apply bind_ok in E as ([] & E2 & E). cbv zeta in E.
  apply bind_ok in E as ([] & E3 & [= -> <-]). apply check_ok in E2. rewrite forallb_forall in E2.
  assert (F : Forall (fun e => length e = length b) outs).
  { apply Forall_forall. intros e He. apply Nat.eqb_eq, E2, He. }
  intros H. apply each_output_solved in H; [destruct H; auto|apply repeat_length| |exact F].
  unfold iv_each in E1. apply bind_ok in E1 as (l & _ & E1). apply bind_ok in E1 as ([] & _ & E1). apply bind_ok in E1 as ([] & E1 & [= <-]).
  apply check_ok, Nat.eqb_eq in E1. exact E1.
Qed.
End Rows.

Lemma columns_mapM {T} (l : list T) idx l' : mapM (fun i => nth_res l i) idx = Ok l' <-> columns l idx l'.
Proof.
  unfold columns. rewrite mapM_Forall2. split; (intros H; eapply Forall2_impl; [|exact H]); intros i x; unfold nth_res; apply of_option_ok.
Qed.

Section Prefilters.
Context {k : Kern} (U : UK k).
Notation E := (kE k).
Implicit Types (outputs inputs : list (list E)) (pf : option (@prefilter k)).

Definition ivlist (iv : pidx) (n : nat) : list (list Z) :=
  match iv with PNone | PFlat [] | PEach [] => repeat [] n | PFlat l => repeat l n | PEach ll => ll end.

Lemma repeat_nth {T} (x : T) n i y : nth_error (repeat x n) i = Some y -> y = x.
Proof. intros H. apply nth_error_In, repeat_spec in H. exact H. Qed.

Lemma ivlist_given iv n i l : nth_error (ivlist iv n) i = Some l -> pgiven iv i l.
Proof.
  destruct iv as [|[|x m]|[|x ll]]; simpl; try apply repeat_nth. auto.
Qed.

Lemma ivlist_len iv n : length (ivlist iv n) = n <-> pfits iv n.
Proof. destruct iv as [|[|x m]|[|x ll]]; simpl; rewrite ?repeat_length; tauto. Qed.

Lemma apply_prefilter_spec outputs inputs pf iv res : apply_prefilter U outputs inputs pf iv = Ok res ->
  outputs <> [] /\ pfits iv (length outputs) /\ length res = length outputs /\
  forall i line, nth_error outputs i = Some line -> exists g r, pgiven iv i g /\ nth_error res i = Some r /\
    match pf with
    | None => r = g
    | Some f => exists l, f line (u_rows k U inputs) = Ok l /\ StronglySorted Z.lt r /\ forall x, In x r <-> In x g \/ In x l
    end.
Proof.
  intros H. change (bind (check (negb (length (ivlist iv (length outputs)) =? 0)) IndexError) (fun _ =>
    bind (check (length (ivlist iv (length outputs)) =? length outputs) AssertionError) (fun _ =>
    match pf with None => Ok (ivlist iv (length outputs)) | Some f =>
      mapM (fun p => r <- f (fst p) (u_rows k U inputs) ;; Ok (union1d (snd p) r)) (combine outputs (ivlist iv (length outputs))) end)) = Ok res) in H.
  apply bind_ok in H as ([] & H1 & H). apply bind_ok in H as ([] & H2 & H). apply check_ok in H1, H2. apply Nat.eqb_eq in H2.
  split; [intros ->; simpl in *; rewrite H2 in H1; discriminate|]. split; [apply ivlist_len, H2|].
  destruct pf as [f|].
  - pose proof (mapM_length _ _ _ H) as Hlen. rewrite combine_length, H2, Nat.min_id in Hlen. split; [exact Hlen|].
    intros i line Hi. assert (Hlt : i < length (ivlist iv (length outputs))) by (rewrite H2; apply nth_error_Some; congruence).
    apply nth_error_Some in Hlt. destruct (nth_error (ivlist iv (length outputs)) i) as [g|] eqn:Hg; [clear Hlt|congruence].
    assert (Hc : nth_error (combine outputs (ivlist iv (length outputs))) i = Some (line, g)).
    { revert Hi Hg. generalize (ivlist iv (length outputs)). clear. revert i. induction outputs as [|o outputs IH]; intros [|i] [|g' l]; simpl; try discriminate; [intros [= ->] [= ->]; reflexivity|apply IH]. }
    destruct (mapM_nth _ _ _ _ _ H Hc) as (r & Hr & Hf). simpl in Hf. apply bind_ok in Hf as (l & Hl & [= <-]).
    exists g, (union1d g l). split; [eapply ivlist_given, Hg|]. split; [exact Hr|]. exists l. split; [exact Hl|].
    split; [apply zinsert_sorted|]. intros x. apply union1d_In.
  - injection H as <-. split; [exact H2|]. intros i line Hi.
    assert (Hlt : i < length (ivlist iv (length outputs))) by (rewrite H2; apply nth_error_Some; congruence).
    apply nth_error_Some in Hlt. destruct (nth_error (ivlist iv (length outputs)) i) as [g|] eqn:Hg; [clear Hlt|congruence].
    exists g, g. split; [eapply ivlist_given, Hg|auto].
Qed.

Lemma apply_prefilter_ok outputs inputs pf iv : outputs <> [] -> pfits iv (length outputs) ->
  (forall f line, pf = Some f -> In line outputs -> exists l, f line (u_rows k U inputs) = Ok l) ->
  exists res, apply_prefilter U outputs inputs pf iv = Ok res.
Proof.
  intros Hne Hf Hp. apply ivlist_len in Hf.
  change (exists res, bind (check (negb (length (ivlist iv (length outputs)) =? 0)) IndexError) (fun _ =>
    bind (check (length (ivlist iv (length outputs)) =? length outputs) AssertionError) (fun _ =>
    match pf with None => Ok (ivlist iv (length outputs)) | Some f =>
      mapM (fun p => r <- f (fst p) (u_rows k U inputs) ;; Ok (union1d (snd p) r)) (combine outputs (ivlist iv (length outputs))) end)) = Ok res).
  rewrite Hf, Nat.eqb_refl. destruct outputs as [|o outs]; [congruence|]. cbn [length Nat.eqb negb check bind].
  destruct pf as [f|]; [|eauto]. apply mapM_ok_exists. intros [line g] Hin. apply in_combine_l in Hin. simpl.
  destruct (Hp f line eq_refl Hin) as (l & ->). simpl. eauto.
Qed.

(** legal prefilters give legal indices *)
Lemma apply_prefilter_legal outputs inputs pf iv res n : legal_prefilter pf -> Forall (fun l => length l = n) outputs ->
  (forall i g, i < length outputs -> pgiven iv i g -> legal n g) ->
  apply_prefilter U outputs inputs pf iv = Ok res -> Forall (legal n) res.
Proof.
  intros Hp Hl Hg H. apply apply_prefilter_spec in H as (_ & _ & Hlen & H). apply Forall_forall. intros r Hr.
  apply In_nth_error in Hr as [i Hi]. assert (Hlt : i < length outputs) by (rewrite <- Hlen; apply nth_error_Some; congruence).
  pose proof Hlt as Hs. apply nth_error_Some in Hs. destruct (nth_error outputs i) as [line|] eqn:Ho; [clear Hs|congruence].
  destruct (H i line Ho) as (g & r' & G & Hr' & M). rewrite Hi in Hr'. injection Hr' as <-. specialize (Hg i g Hlt G).
  destruct pf as [f|]; [|subst; exact Hg]. destruct M as (l & Hf & _ & M). intros x Hx. apply M in Hx as [Hx|Hx]; [apply Hg, Hx|].
  apply (Hp _ _ _ Hf) in Hx. rewrite Forall_forall in Hl. rewrite (Hl line (nth_error_In _ _ Ho)) in Hx. exact Hx.
Qed.
End Prefilters.

(** ** Times of the rejected windows *)
Section Times.
Context {k : Kern}.
Notation A := (kA k).

Lemma filter_split (N : Z) line : StronglySorted Z.lt line ->
  line = filter (fun i => (i <? N)%Z) line ++ filter (fun i => negb (i <? N)%Z) line.
Proof.
  induction 1 as [|x l H IH Hx]; [reflexivity|]. simpl. destruct (Z.ltb_spec x N) as [D|D]; simpl; [f_equal; exact IH|].
  rewrite Forall_forall in Hx.
  assert (E : filter (fun i => (i <? N)%Z) l = []).
  { clear IH H. induction l as [|y l IH]; [reflexivity|]. simpl. pose proof (Hx y (or_introl eq_refl)). destruct (Z.ltb_spec y N); [lia|].
    apply IH. intros z Hz. apply Hx. right. exact Hz. }
  rewrite E. simpl. f_equal. symmetry. apply filter_id. intros y Hy. apply Hx in Hy. destruct (Z.ltb_spec y N); [lia|reflexivity].
Qed.

Notation winrun := (((num A * num A) * (nat * nat * nat))%type).
Definition counts (l : list winrun) : list nat := map (fun p => fst (fst (snd p))) l.

Lemma sorted_filter (f : Z -> bool) l : StronglySorted Z.lt l -> StronglySorted Z.lt (filter f l).
Proof.
  induction 1 as [|x l H IH Hx]; simpl; [constructor|]. destruct (f x); [|exact IH]. constructor; [exact IH|].
  rewrite Forall_forall in *. intros y Hy. apply filter_In in Hy as [Hy _]. auto.
Qed.
Lemma sorted_shift N l : StronglySorted Z.lt l -> StronglySorted Z.lt (map (fun i => (i - N)%Z) l).
Proof.
  induction 1 as [|x l H IH Hx]; simpl; constructor; [exact IH|]. rewrite Forall_forall in *. intros y Hy.
  apply in_map_iff in Hy as (z & <- & Hz). apply Hx in Hz. lia.
Qed.

Lemma invalid_times_spec : forall (l : list ((num A * num A) * (nat * nat * nat))) line,
  StronglySorted Z.lt line -> (forall i, In i line -> (0 <= i < Z.of_nat (list_sum (counts l)))%Z) ->
  length (invalid_times l line) = length line /\
  forall p i, nth_error line p = Some i -> exists r j rate start Nw Lw shift,
    nth_error l r = Some ((rate, start), (Nw, Lw, shift)) /\ in_run (counts l) i r j /\
    nth_error (invalid_times l line) p = Some (centre rate start Lw shift j).
Proof.
  induction l as [|[[rate start] [[Nw Lw] shift]] l IH]; intros line Hs Hr.
  - destruct line as [|i line]; [split; [reflexivity|intros [|p] i; discriminate]|]. specialize (Hr i (or_introl eq_refl)). simpl in Hr. lia.
  - simpl. set (ii := filter (fun i => (i <? Z.of_nat Nw)%Z) line). set (rr := filter (fun i => negb (i <? Z.of_nat Nw)%Z) line).
    pose proof (filter_split (Z.of_nat Nw) line Hs) as Hsp. fold ii rr in Hsp.
    destruct (IH (map (fun i => (i - Z.of_nat Nw)%Z) rr)) as [H1 H2].
    { apply sorted_shift, sorted_filter, Hs. }
    { intros i Hi. apply in_map_iff in Hi as (i' & <- & Hi). apply filter_In in Hi as [Hi D]. apply negb_true_iff, Z.ltb_ge in D.
      specialize (Hr i' Hi). simpl in Hr. lia. }
    rewrite map_length in H1. split.
    { rewrite app_length, map_length, H1, <- app_length, <- Hsp. reflexivity. }
    intros p i Hp. rewrite Hsp in Hp. destruct (Nat.lt_ge_cases p (length ii)) as [D|D].
    + rewrite nth_error_app1 in Hp by exact D. exists 0, (Z.to_nat i), rate, start, Nw, Lw, shift. split; [reflexivity|].
      pose proof (nth_error_In _ _ Hp) as Hi. apply filter_In in Hi as [Hi Hlt]. apply Z.ltb_lt in Hlt. specialize (Hr i Hi).
      split; [exists Nw; simpl; split; [reflexivity|]; lia|].
      rewrite nth_error_app1 by (rewrite map_length; exact D). rewrite nth_error_map, Hp. simpl. unfold centre. rewrite Z2Nat.id by lia. reflexivity.
    + rewrite nth_error_app2 in Hp by exact D. rewrite nth_error_app2, map_length by (rewrite map_length; exact D).
      assert (Hp' : nth_error (map (fun i => (i - Z.of_nat Nw)%Z) rr) (p - length ii) = Some (i - Z.of_nat Nw)%Z) by (rewrite nth_error_map, Hp; reflexivity).
      destruct (H2 _ _ Hp') as (r & j & rate' & start' & Nw' & Lw' & shift' & G1 & (n & G2 & G3 & G4) & G5).
      exists (S r), j, rate', start', Nw', Lw', shift'. split; [exact G1|]. split; [|exact G5].
      exists n. simpl. split; [exact G2|]. split; [exact G3|]. fold (counts l) in *. lia.
Qed.
End Times.
