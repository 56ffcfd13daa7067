(** The two stages of an estimate with remotes, and the single one without (C85). *)
From Verif Require Import Base BaseLemmas Arith TagsModel SyncModel SetModel FourierModel MestModel SpecMest UtilsModel SpecUtils UtilsProofs UtilsRun.

Lemma merged_sorted ivs : StronglySorted Z.lt (merged ivs).
Proof.
  unfold merged. assert (G : forall ivs acc, StronglySorted Z.lt acc -> StronglySorted Z.lt (fold_left union1d ivs acc)).
  { clear. induction ivs as [|iv ivs IH]; intros acc H; simpl; [exact H|]. apply IH. apply zinsert_sorted. }
  apply G. constructor.
Qed.

Lemma sorted_same (l l' : list Z) : StronglySorted Z.lt l -> StronglySorted Z.lt l' -> (forall x, In x l <-> In x l') -> l = l'.
Proof.
  intros S. revert l'. induction S as [|x l S IH F]; intros l' S' H.
  - destruct l' as [|y l']; [reflexivity|]. exfalso. apply (H y). left. reflexivity.
  - destruct S' as [|y l' S' F']; [exfalso; apply (H x); left; reflexivity|]. rewrite Forall_forall in *.
    assert (x = y).
    { assert (Hx : In x (y :: l')) by (apply H; left; reflexivity). assert (Hy : In y (x :: l)) by (apply H; left; reflexivity).
      destruct Hx as [->|Hx]; [reflexivity|]. destruct Hy as [->|Hy]; [reflexivity|]. apply F' in Hx. apply F in Hy. lia. }
    subst y. f_equal. apply IH; [exact S'|]. intros z. split; intros Hz.
    + assert (G : In z (x :: l')) by (apply H; right; exact Hz). destruct G as [->|G]; [|exact G]. apply F in Hz. lia.
    + assert (G : In z (x :: l)) by (apply H; right; exact Hz). destruct G as [->|G]; [|exact G]. apply F' in Hz. lia.
Qed.

Section Stages.
Context {k : Kern} (U : UK k) {V K St : Type}.
Implicit Types (a : @iargs k St) (X : @sigset (kA k) V K) (coeffs : list (list (kE k))) (st : St).

Lemma rejected_merged (l : list (option (kZ k) * list Z)) m : rejected_somewhere l m <-> m = merged (map snd l).
Proof.
  assert (G : forall j, In j (merged (map snd l)) <-> exists x, In x l /\ In j (snd x)).
  { intros j. rewrite merged_In. split.
    - intros (iv & H & Hj). apply in_map_iff in H as (x & <- & Hx). eauto.
    - intros (x & Hx & Hj). exists (snd x). split; [apply in_map, Hx|exact Hj]. }
  split.
  - intros [S H]. apply sorted_same; [exact S|apply merged_sorted|]. intros j. rewrite H, G. reflexivity.
  - intros ->. split; [apply merged_sorted|exact G].
Qed.

Lemma rows_of_estimates x (l : list (option (kZ k) * list Z)) z : rows_of x (map fst l) = Ok z <-> estimates l z.
Proof.
  unfold rows_of, estimates. generalize (map fst l). clear l. intros l. rewrite mapM_Forall2. split.
  - induction 1 as [|o y l z H _ IH]; [reflexivity|]. simpl. apply of_option_ok in H. congruence.
  - revert z. induction l as [|o l IH]; intros [|y z] H; try discriminate; constructor.
    + injection H as -> _. reflexivity.
    + injection H as _ H. apply IH, H.
Qed.

Lemma stage_estimate a outs ins ws pf iv st l st' :
  (ia_real_pb a = false /\ stage U (ia_opts a) outs ins ws pf iv st l st') <->
  exists ivs, apply_prefilter U outs ins pf iv = Ok ivs /\ estimate U a outs ins ws ivs st = (Ok l, st').
Proof.
  unfold stage, estimate. split.
  - intros (-> & ivs & H). eauto.
  - intros (ivs & H1 & H2). destruct (ia_real_pb a); [discriminate|]. eauto.
Qed.

Lemma list_or_remote a l : list_or (ia_remote_weights a) (ia_weights a) l <-> l = remote_weights a.
Proof. unfold list_or, remote_weights. destruct (ia_remote_weights a) as [[|w ws]|]; reflexivity. Qed.
Lemma or_else_remote a f : or_else (ia_remote_prefilter a) (ia_prefilter a) f <-> f = remote_prefilter a.
Proof.
  unfold or_else, remote_prefilter. destruct (ia_remote_prefilter a) as [g|]; split.
  - intros [(x & [= <-] & ->)|[? _]]; [reflexivity|discriminate].
  - intros ->. left. eauto.
  - intros [(x & ? & _)|[_ ->]]; [discriminate|reflexivity].
  - intros ->. auto.
Qed.

Lemma coeffs_eq a X coeffs w st es bs e b br :
  t_get (ss_tags X) (ia_elec a) = Ok es -> columns coeffs es e -> t_get (ss_tags X) (ia_mag a) = Ok bs -> columns coeffs bs b ->
  match remote_name a, br with
  | None, None => True
  | Some r, Some br => exists rs, t_get (ss_tags X) r = Ok rs /\ columns coeffs rs br
  | _, _ => False
  end ->
  forall T be iv1 st1 iv2 l z err st', first_stage U a e b br st T be iv1 st1 ->
     apply_prefilter U e be (ia_prefilter a) iv1 = Ok iv2 ->
     estimate U a e be (ia_weights a) iv2 st1 = (Ok l, st') ->
     rows_of IndexError (map fst l) = Ok z -> u_error k U e be z (map snd l) = Ok err ->
  impedance_coeffs U a X coeffs w st =
    (Ok (mkIres U (Values z) (map (fun iv => if ia_keep a then invalid_times (run_windows X w) iv else []) (map snd l)) (Values err) (T_of b T)), st').
Proof.
  intros He Ce Hb Cb R T be iv1 st1 iv2 l z err st' F Hp Hs Hz Herr. unfold impedance_coeffs. cbv zeta.
  rewrite He, Hb. cbn [bind]. apply columns_mapM in Ce, Cb. rewrite Ce, Cb. cbn [bind].
  assert (Q : match remote_name a with None => Ok None | Some r => bind (bind (t_get (ss_tags X) r) (fun idx => mapM (fun i => nth_res coeffs i) idx)) (fun x => Ok (Some x)) end = Ok br).
  { destruct (remote_name a) as [rn|], br as [br|]; try contradiction; [|reflexivity]. destruct R as (rs & -> & Cr). cbn [bind]. apply columns_mapM in Cr. rewrite Cr. reflexivity. }
  rewrite Q. cbn [bind].
  assert (S1 : stage1 U a b br (length e) st = (Ok (Some (T, be, iv1)), st1)).
  { unfold stage1. unfold first_stage in F. destruct br as [br|].
    - destruct F as (iv0 & l1 & T' & F1 & F2 & F3 & -> & -> & ->). rewrite F1, F2, F3. reflexivity.
    - destruct F as (-> & -> & -> & ->). reflexivity. }
  rewrite S1, Hp, Hs, Hz. cbn [bind]. rewrite Herr. cbn [bind]. f_equal. f_equal. destruct (ia_keep a); reflexivity.
Qed.

Lemma remote_stages a X coeffs w st rn z T err st' : remote_name a = Some rn ->
  (exists r, impedance_coeffs U a X coeffs w st = (Ok r, st') /\ ir_z U r = Values z /\ ir_T U r = Values T /\ ir_err U r = Values err) <->
  ia_real_pb a = false /\
  exists es bs rs e b br ws1 pf1 l1 m l2 st1,
    t_get (ss_tags X) (ia_elec a) = Ok es /\ columns coeffs es e /\ t_get (ss_tags X) (ia_mag a) = Ok bs /\ columns coeffs bs b /\
    t_get (ss_tags X) rn = Ok rs /\ columns coeffs rs br /\
    list_or (ia_remote_weights a) (ia_weights a) ws1 /\ or_else (ia_remote_prefilter a) (ia_prefilter a) pf1 /\
    stage U (ia_opts a) b br ws1 pf1 PNone st l1 st1 /\ estimates l1 T /\ rejected_somewhere l1 m /\
    stage U (ia_opts a) e (u_dot k U T br) (ia_weights a) (ia_prefilter a) (PEach (repeat m (length es))) st1 l2 st' /\ estimates l2 z /\
    u_error k U e (u_dot k U T br) z (map snd l2) = Ok err.
Proof.
  intros Hr. split.
  - intros (r & H & Hz & HT & He). apply coeffs_inv in H as (e & b & br & ((es & E1 & E2) & (bs & B1 & B2) & R) & [(_ & ->)|(T0 & be & iv1 & st1 & iv2 & l & z' & err' & F & Hp & Hs & Hrow & Herr & ->)]); [discriminate|].
    simpl in Hz, HT, He. injection Hz as ->. injection He as ->. rewrite Hr in R. destruct br as [br|]; [|contradiction]. destruct R as (rs & R1 & R2).
    destruct F as (iv0 & l1 & T' & F1 & F2 & F3 & -> & -> & ->). simpl in HT. injection HT as ->.
    assert (Hreal : ia_real_pb a = false) by (unfold estimate in F2; destruct (ia_real_pb a); [discriminate|reflexivity]).
    split; [exact Hreal|].
    exists es, bs, rs, e, b, br, (remote_weights a), (remote_prefilter a), l1, (merged (map snd l1)), l, st1.
    do 6 (split; [assumption|]). split; [apply list_or_remote; reflexivity|]. split; [apply or_else_remote; reflexivity|].
    split; [apply (stage_estimate a); eauto|]. split; [eapply rows_of_estimates; exact F3|]. split; [apply rejected_merged; reflexivity|].
    split; [apply (stage_estimate a); exists iv2; split; [|exact Hs]; rewrite (Forall2_len _ _ _ E2); exact Hp|].
    split; [eapply rows_of_estimates; exact Hrow|exact Herr].
  - intros (Hreal & es & bs & rs & e & b & br & ws1 & pf1 & l1 & m & l2 & st1 & E1 & E2 & B1 & B2 & R1 & R2 & W & P & S1 & T1 & M & S2 & Z2 & Herr).
    apply list_or_remote in W. apply or_else_remote in P. apply rejected_merged in M. subst ws1 pf1 m.
    destruct (proj1 (stage_estimate a _ _ _ _ _ _ _ _) (conj Hreal S1)) as (iv0 & Q1 & Q2).
    destruct (proj1 (stage_estimate a _ _ _ _ _ _ _ _) (conj Hreal S2)) as (iv2 & Q3 & Q4).
    rewrite (Forall2_len _ _ _ E2) in Q3.
    rewrite (coeffs_eq a X coeffs w st es bs e b (Some br) E1 E2 B1 B2 ltac:(rewrite Hr; eauto)
      (Some T) (u_dot k U T br) (PEach (repeat (merged (map snd l1)) (length e))) st1 iv2 l2 z err st').
    + eexists. split; [reflexivity|]. simpl. auto.
    + exists iv0, l1, T. apply (rows_of_estimates ValueError) in T1. auto 10.
    + exact Q3.
    + exact Q4.
    + apply rows_of_estimates, Z2.
    + exact Herr.
Qed.

Lemma local_stage a X coeffs w st z err st' : remote_name a = None ->
  (exists r, impedance_coeffs U a X coeffs w st = (Ok r, st') /\ ir_z U r = Values z /\ ir_err U r = Values err) <->
  ia_real_pb a = false /\
  exists es bs e b l,
    t_get (ss_tags X) (ia_elec a) = Ok es /\ columns coeffs es e /\ t_get (ss_tags X) (ia_mag a) = Ok bs /\ columns coeffs bs b /\
    stage U (ia_opts a) e b (ia_weights a) (ia_prefilter a) PNone st l st' /\ estimates l z /\
    u_error k U e b z (map snd l) = Ok err.
Proof.
  intros Hr. split.
  - intros (r & H & Hz & He). apply coeffs_inv in H as (e & b & br & ((es & E1 & E2) & (bs & B1 & B2) & R) & [(_ & ->)|(T0 & be & iv1 & st1 & iv2 & l & z' & err' & F & Hp & Hs & Hrow & Herr & ->)]); [discriminate|].
    simpl in Hz, He. injection Hz as ->. injection He as ->. rewrite Hr in R. destruct br as [br|]; [contradiction|].
    destruct F as (-> & -> & -> & ->).
    assert (Hreal : ia_real_pb a = false) by (unfold estimate in Hs; destruct (ia_real_pb a); [discriminate|reflexivity]).
    split; [exact Hreal|]. exists es, bs, e, b, l. do 4 (split; [assumption|]). split; [apply (stage_estimate a); eauto|].
    split; [eapply rows_of_estimates; exact Hrow|exact Herr].
  - intros (Hreal & es & bs & e & b & l & E1 & E2 & B1 & B2 & S2 & Z2 & Herr).
    destruct (proj1 (stage_estimate a _ _ _ _ _ _ _ _) (conj Hreal S2)) as (iv2 & Q3 & Q4).
    rewrite (coeffs_eq a X coeffs w st es bs e b None E1 E2 B1 B2 ltac:(rewrite Hr; exact I) None b PNone st iv2 l z err st').
    + eexists. split; [reflexivity|]. simpl. auto.
    + simpl. auto.
    + exact Q3.
    + exact Q4.
    + apply rows_of_estimates, Z2.
    + exact Herr.
Qed.
End Stages.

Lemma with_remote_iff {k St} (a : @iargs k St) rn : with_remote (ia_remote a) rn <-> remote_name a = Some rn.
Proof.
  unfold with_remote, remote_name. destruct (ia_remote a) as [r|]; [|split; [intros [H _]; discriminate|discriminate]].
  destruct (String.eqb_spec r ""); subst; split; try discriminate.
  - intros [H N]. injection H as <-. destruct (N eq_refl).
  - intros [H N]. exact H.
  - intros H. injection H as <-. auto.
Qed.
Lemma no_remote_iff {k St} (a : @iargs k St) : no_remote (ia_remote a) <-> remote_name a = None.
Proof.
  unfold no_remote, remote_name. destruct (ia_remote a) as [r|]; [|split; auto].
  destruct (String.eqb_spec r ""); subst; split; auto; try discriminate. intros [H|H]; [discriminate|]. injection H. contradiction.
Qed.
