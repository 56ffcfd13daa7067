From Verif Require Import Base BaseLemmas Arith MestModel SpecMest MestProofs MestRun SpecMestAll.

Lemma lt_sorted_unique (l : list nat) : forall l', StronglySorted lt l -> StronglySorted lt l' -> (forall i, In i l <-> In i l') -> l = l'.
Proof.
  intros l' H H' E. assert (G : map Z.of_nat l = map Z.of_nat l').
  { apply sorted_unique.
    - clear - H. induction H as [|x l H IH Hx]; constructor; [exact IH|]. rewrite Forall_forall in *. intros y Hy. apply in_map_iff in Hy as (z & <- & Hz). apply Hx in Hz. lia.
    - clear - H'. induction H' as [|x l H IH Hx]; constructor; [exact IH|]. rewrite Forall_forall in *. intros y Hy. apply in_map_iff in Hy as (z & <- & Hz). apply Hx in Hz. lia.
    - intros i. rewrite !in_map_iff. split; intros (x & <- & Hx); exists x; (split; [reflexivity|]); apply E; exact Hx. }
  apply (f_equal (map Z.to_nat)) in G. rewrite !map_map in G.
  assert (I : forall l, map (fun x => Z.to_nat (Z.of_nat x)) l = l) by (intros m; rewrite <- (map_id m) at 2; apply map_ext; intros; apply Nat2Z.id).
  rewrite !I in G. exact G.
Qed.

Lemma remain_del rows iv left : StronglySorted lt rows -> remain rows iv left -> left = del 0 iv rows.
Proof.
  intros H [H1 H2]. destruct (del_remain rows iv H) as [H3 H4]. apply lt_sorted_unique; [exact H1|exact H3|].
  intros x. rewrite H2, H4. reflexivity.
Qed.

Lemma pick_fun {T} (l : list T) rows : forall a b, pick l rows a -> pick l rows b -> a = b.
Proof.
  induction rows as [|i rows IH]; intros a b Ha Hb; inversion Ha; inversion Hb; subst; [reflexivity|].
  f_equal; [congruence|]. apply IH; assumption.
Qed.

Section S.
Context {k : Kern} {St : Type}.
Implicit Types (o : opts k).

Lemma steps_chain o e b (ws : list (option (wfun k St))) : forall rows e1 b1 z ii st zf left st',
  StronglySorted lt rows -> pick e rows e1 -> pick b rows b1 -> legal (length rows) ii ->
  steps o e b rows z ii ws st zf left st' ->
  exists l, chain o e1 b1 ws z ii st = (Ok (zf, l), st') /\ legals (map Z.of_nat rows) l /\ dels (map Z.of_nat rows) l = map Z.of_nat left.
Proof.
  induction ws as [|w ws IH]; intros rows e1 b1 z ii st zf left st' Hs He Hb Hii H.
  - inversion H; subst. exists [ii]. split; [reflexivity|]. apply (remain_del _ _ _ Hs) in H0 as ->.
    simpl. rewrite map_length, del_map. auto.
  - inversion H as [|? ? ? ? ? ? rows' e' b' z' iv' st1 ? ? ? Hr Hne Pe Pb Hm Hst]; subst.
    apply (remain_del _ _ _ Hs) in Hr. subst rows'.
    pose proof (del_pick _ _ _ ii 0 He) as He'. pose proof (del_pick _ _ _ ii 0 Hb) as Hb'.
    rewrite (pick_fun _ _ _ _ Pe He') in Hm. rewrite (pick_fun _ _ _ _ Pb Hb') in Hm.
    pose proof (legal_nn _ _ Hii) as Hn. pose proof (pick_length _ _ _ He') as Hl.
    assert (Hlen : length (del 0 ii e1) <> 0).
    { rewrite Hl. intros G. apply Hne. destruct (del 0 ii rows); [reflexivity|discriminate]. }
    assert (Hiv : legal (length (del 0 ii rows)) iv').
    { rewrite <- Hl. eapply m_estimate_legal; [exact Hlen| |exact Hm]. intros i []. }
    destruct (IH (del 0 ii rows) _ _ _ _ _ _ _ _ (del_sorted _ ii rows 0 Hs) He' Hb' Hiv Hst) as (l & Hc & L1 & L2).
    exists (ii :: l). split.
    + simpl.
      rewrite (proj2 (eliminate_ok e1 ii _ Hn)) by (split; [rewrite (pick_length _ _ _ He); exact Hii|reflexivity]). cbn [bind].
      rewrite (proj2 (eliminate_ok b1 ii _ Hn)) by (split; [rewrite (pick_length _ _ _ Hb); exact Hii|reflexivity]). cbn [bind].
      destruct (length (del 0 ii e1)) eqn:E0; [congruence|]. cbn [Nat.eqb negb check bind]. rewrite Hm, Hc. reflexivity.
    + simpl. rewrite map_length, del_map. auto.
Qed.

Lemma each_output_iff o b (ws : list (option (wfun k St))) outs : forall inits ivs st rs st',
  length inits = length outs -> length ivs = length outs ->
  Forall (fun e => length e = length b) outs -> Forall (legal (length b)) ivs ->
  each_output o b ws outs inits (map Ok ivs) st = (Ok rs, st') <-> all_steps o b ws outs inits ivs st rs st'.
Proof.
  induction outs as [|e outs IH]; intros inits ivs st rs st' H1 H2 Hl Hiv.
  - destruct inits; [|discriminate]. destruct ivs; [|discriminate]. simpl. split.
    + intros [= <- <-]. constructor.
    + intros H. inversion H; subst. reflexivity.
  - destruct inits as [|z0 inits]; [discriminate|]. destruct ivs as [|iv ivs]; [discriminate|].
    inversion Hl as [|? ? Hle Hlo]; subst. inversion Hiv as [|? ? Hiv0 Hivs]; subst.
    assert (Hl0 : legal (length (seq 0 (length b))) iv) by (rewrite seq_length; exact Hiv0).
    pose proof (pick_all e) as Pe. rewrite Hle in Pe.
    assert (A : map Z.of_nat (seq 0 (length b)) = arange (Z.of_nat (length b))) by (unfold arange; rewrite Nat2Z.id; reflexivity).
    injection H1 as H1. injection H2 as H2.
    assert (C : forall left l m, legals (map Z.of_nat (seq 0 (length b))) l -> dels (map Z.of_nat (seq 0 (length b))) l = map Z.of_nat left ->
      (merge_invalid_indices l = Ok m <-> complement (length b) left m)).
    { intros left l m L1 L2. rewrite A in L1, L2. destruct (merge_spec _ _ L1) as (m' & Hm & Hsort & Hin). rewrite Hm.
      assert (Hc : complement (length b) left m').
      { split; [exact Hsort|]. intros i. rewrite Hin, L2. split; intros [G1 G2]; (split; [exact G1|]); intros G; apply G2.
        - apply in_map_iff. exists (Z.to_nat i). split; [lia|exact G].
        - apply in_map_iff in G as (x & Hx & Gx). replace (Z.to_nat i) with x by lia. exact Gx. }
      split; [intros [= <-]; exact Hc|]. intros [Hs' Hin']. f_equal. apply sorted_unique; [exact Hsort|exact Hs'|].
      intros i. rewrite (proj2 Hc i), Hin'. reflexivity. }
    cbn [map each_output]. split.
    + destruct (chain o e b ws z0 iv st) as [[[z l]|x] st1] eqn:Ec; [|discriminate]. cbn [bind].
      destruct (chain_steps o e b ws _ _ _ _ _ _ _ _ _ (sorted_seq 0 (length b)) Pe (pick_all b) Hl0 Ec) as (left & S1 & S2 & S3).
      destruct (merge_invalid_indices l) as [m|x] eqn:Em; [|discriminate]. cbn [bind].
      destruct (each_output o b ws outs inits (map Ok ivs) st1) as [[rs1|x] st2] eqn:Ee; [|discriminate]. cbn [bind].
      intros [= <- <-]. econstructor; [exact Hle|exact S1|apply (C left l m S2 S3), Em|].
      apply IH; [exact H1|exact H2|exact Hlo|exact Hivs|exact Ee].
    + intros H. inversion H as [|? ? ? ? ? ? ? z left st1 iv' rs1 st2 _ Hst Hc Ha]; subst.
      destruct (steps_chain o e b ws _ _ _ _ _ _ _ _ _ (sorted_seq 0 (length b)) Pe (pick_all b) Hl0 Hst) as (l & Hch & L1 & L2).
      rewrite Hch. cbn [bind]. rewrite (proj2 (C left l iv' L1 L2) Hc). cbn [bind].
      apply IH in Ha; [|assumption..]. rewrite Ha. reflexivity.
Qed.

Lemma repeat_nth {T} (l : list T) x : (forall i y, nth_error l i = Some y -> y = x) -> l = repeat x (length l).
Proof.
  induction l as [|y l IH]; intros H; [reflexivity|]. simpl. f_equal; [apply (H 0); reflexivity|]. apply IH. intros i. apply (H (S i)).
Qed.

Lemma list_nth {T} (l m : list T) : length l = length m -> (forall i y, nth_error l i = Some y -> nth_error m i = Some y) -> l = m.
Proof.
  revert m. induction l as [|x l IH]; intros [|y m]; try discriminate; [reflexivity|]. intros Hl H. injection Hl as Hl.
  f_equal; [specialize (H 0 x eq_refl); simpl in H; congruence|]. apply IH; [exact Hl|]. intros i. apply (H (S i)).
Qed.

Lemma iv_each_iff p iv ls : p <> 0 ->
  iv_each p iv = Ok (map Ok ls) <-> givens iv p ls /\ givens_fit iv p.
Proof.
  intros Hp. unfold iv_each, givens, givens_fit.
  assert (R : forall m : list Z, (_ <- check (negb (length (repeat (@Ok (list Z) m) p) =? 0)) IndexError ;;
      _ <- check (length (repeat (@Ok (list Z) m) p) =? p) AssertionError ;; Ok (repeat (Ok m) p)) = Ok (map Ok ls) <->
      length ls = p /\ forall i l, nth_error ls i = Some l -> l = m).
  { intros m. rewrite repeat_length. destruct p as [|p]; [congruence|]. cbn [Nat.eqb negb check bind]. rewrite Nat.eqb_refl. cbn [check bind].
    split.
    - intros [= H]. assert (E : ls = repeat m (S p)).
      { change (Ok m :: repeat (Ok m) p) with (repeat (@Ok (list Z) m) (S p)) in H. revert H. generalize (S p). clear. intros p. revert ls.
        induction p as [|p IH]; intros [|y ls]; simpl; try discriminate; [reflexivity|]. intros [= <- H]. f_equal. apply IH. exact H. }
      rewrite E, repeat_length. split; [reflexivity|]. intros i l G. apply nth_error_In, repeat_spec in G. exact G.
    - intros [H1 H2]. apply repeat_nth in H2. rewrite H2, H1. f_equal. clear. induction (S p) as [|q IH]; simpl; [reflexivity|]. f_equal. exact IH. }
  destruct iv as [|m|m|ll].
  - cbn [bind]. rewrite R. simpl. tauto.
  - destruct m as [|m0 m]; cbn [bind]; rewrite R; simpl; tauto.
  - destruct m as [|m0 m]; cbn [bind].
    + rewrite R. simpl. split; [intros [H1 H2]; repeat split; eauto|]. intros [[H1 H2] _]. split; [exact H1|]. intros i l G. apply H2 in G. tauto.
    + split.
      * intros H. apply bind_ok in H as ([] & _ & H). apply bind_ok in H as ([] & H1 & [= H]). apply check_ok, Nat.eqb_eq in H1.
        destruct ls; discriminate.
      * intros [[H1 H2] _]. destruct ls as [|l ls]; [simpl in H1; congruence|]. destruct (H2 0 l eq_refl) as [G _]. discriminate.
  - destruct ll as [|l0 ll]; cbn [bind].
    + rewrite R. simpl. tauto.
    + rewrite map_length. split.
      * intros H. apply bind_ok in H as ([] & _ & H). apply bind_ok in H as ([] & H1 & H). apply check_ok, Nat.eqb_eq in H1.
        injection H as H. assert (E : ls = l0 :: ll).
        { assert (I : forall a b : list (list Z), map Ok a = map (@Ok (list Z)) b -> a = b).
          { induction a as [|x a IHa]; intros [|y b']; simpl; try discriminate; [reflexivity|]. intros [= -> G]. f_equal. apply IHa, G. }
          symmetry. apply I. exact H. }
        subst ls. split; [split; [exact H1|]|exact H1]. intros i l G. exact G.
      * intros [[H1 H2] H3]. assert (E : ls = l0 :: ll) by (apply list_nth; [congruence|exact H2]). subst ls. rewrite H3.
        cbn [length] in H3. destruct p; [congruence|]. cbn [Nat.eqb negb check bind]. rewrite Nat.eqb_refl. reflexivity.
Qed.

Lemma transfer_function_iff o outputs (b : list (kB k)) (ws : list (option (wfun k St))) init iv st rs st' :
  outputs <> [] -> (forall i l, given iv i l -> legal (length b) l) ->
  transfer_function o outputs b ws init iv st = (Ok rs, st') <->
  guesses_fit init (length outputs) /\ givens_fit iv (length outputs) /\
  exists zs ls, guesses init (length outputs) zs /\ givens iv (length outputs) ls /\
    all_steps o b ws outputs zs ls st rs st'.
Proof.
  intros Ho Hg. assert (Hp : length outputs <> 0) by (destruct outputs; [congruence|discriminate]).
  assert (Hgi : forall zs, guesses_fit init (length outputs) ->
    guesses init (length outputs) zs <-> zs = match init with None => repeat None (length outputs) | Some l => l end).
  { intros zs Hf. unfold guesses. destruct init as [l|]; simpl in Hf |- *.
    - split; [intros [H1 H2]; apply list_nth; [congruence|exact H2]|intros ->; auto].
    - split; [intros [H1 H2]; rewrite <- H1; apply repeat_nth; exact H2|intros ->]. rewrite repeat_length. split; [reflexivity|].
      intros i z G. apply nth_error_In, repeat_spec in G. exact G. }
  assert (Hle : forall ls, givens iv (length outputs) ls -> Forall (legal (length b)) ls).
  { intros ls [_ H]. apply Forall_forall. intros l G. apply In_nth_error in G as [i G]. apply (Hg i), H, G. }
  unfold transfer_function. split.
  - destruct (bind (iv_each _ iv) _) as [[ivs inits]|x] eqn:E; [|discriminate].
    apply bind_ok in E as (ivs' & Ei & E). apply bind_ok in E as ([] & Ea & E). apply bind_ok in E as ([] & Eb & [= -> <-]).
    apply check_ok in Ea, Eb. apply Nat.eqb_eq in Eb. rewrite forallb_forall in Ea. intros H.
    assert (F : guesses_fit init (length outputs)) by (destruct init; simpl; [exact Eb|exact I]).
    (* every list is present, otherwise the loop fails *)
    assert (Hivs : length ivs = length outputs).
    { unfold iv_each in Ei. apply bind_ok in Ei as (x & _ & Ei). apply bind_ok in Ei as ([] & _ & Ei). apply bind_ok in Ei as ([] & Ei & [= <-]).
      apply check_ok, Nat.eqb_eq in Ei. exact Ei. }
    assert (Hall : exists ls, ivs = map Ok ls).
    { revert H Eb Hivs. clear. generalize (match init with None => repeat None (length outputs) | Some l => l end). intros zs.
      revert zs ivs st rs. induction outputs as [|e outs IH]; intros [|z0 zs] [|v ivs] st rs H H1 H2; try discriminate; [exists []; reflexivity|].
      cbn [each_output] in H. destruct v as [v|x]; [|discriminate]. injection H1 as H1. injection H2 as H2.
      destruct (chain o e b ws z0 v st) as [[[z l]|x] st1]; [|discriminate]. cbn [bind] in H.
      destruct (merge_invalid_indices l); [|discriminate]. cbn [bind] in H.
      destruct (each_output o b ws outs zs ivs st1) as [[rs1|x] st2] eqn:Ee; [|discriminate].
      cbn [bind] in H. injection H as <- ->.
      destruct (IH _ _ _ _ Ee H1 H2) as [ls ->]. exists (v :: ls). reflexivity. }
    destruct Hall as [ls ->]. apply iv_each_iff in Ei as [Ei Ef]; [|exact Hp]. split; [exact F|]. split; [exact Ef|].
    exists (match init with None => repeat None (length outputs) | Some l => l end), ls. split; [apply Hgi; [exact F|reflexivity]|]. split; [exact Ei|].
    apply each_output_iff in H; [exact H|exact Eb|rewrite map_length in Hivs; exact Hivs| |apply Hle, Ei].
    apply Forall_forall. intros e He. apply Nat.eqb_eq, Ea, He.
  - intros (F & Ef & zs & ls & Hz & Hl & Ha). apply (Hgi zs F) in Hz as Ez. 
    assert (Hlen : forallb (fun e => length e =? length b) outputs = true).
    { clear - Ha. induction Ha as [|? ? ? ? ? ? ? ? ? ? ? ? ? He _ _ _ IH]; [reflexivity|]. simpl. rewrite He, Nat.eqb_refl. exact IH. }
    rewrite (proj2 (iv_each_iff _ iv ls Hp) (conj Hl Ef)). cbn [bind]. rewrite Hlen. cbn [check bind]. rewrite <- Ez.
    rewrite (proj1 Hz), Nat.eqb_refl. cbn [check bind].
    apply each_output_iff; [apply Hz|apply Hl| |apply Hle, Hl|exact Ha].
    apply Forall_forall. rewrite forallb_forall in Hlen. intros e He. apply Nat.eqb_eq, Hlen, He.
Qed.
End S.
