(** Printing: same results, and what is printed. *)
From Verif Require Import Base BaseLemmas Arith TagsModel SyncModel SetModel InvModel FourierModel MestModel SpecMest UtilsModel SpecUtils UtilsProofs UtilsRun StageProofs MassModel
  PrintModel SpecPrint.
Open Scope nat_scope.

Section Loops.
Context {F : Type}.
Notation line := (line F).

Lemma started_app (o o' : list line) : started (o ++ o') = started o ++ started o'.
Proof. apply flat_map_app. Qed.
Lemma reported_app (o o' : list line) : reported (o ++ o') = reported o ++ reported o'.
Proof. apply flat_map_app. Qed.
Lemma progress_app (o o' : list line) : progress (o ++ o') = progress o ++ progress o'.
Proof. apply flat_map_app. Qed.

Lemma stepwise_app (l : list F) n i o j o' m : stepwise l n i o j -> stepwise l n j o' m -> stepwise l n i (o ++ o') m.
Proof. induction 1 as [|i b o j H1 H2 _ IH]; intros H; [exact H|]. cbn [app]. rewrite <- app_assoc. apply one_step; auto. Qed.

(** a loop whose steps are stepwise *)
Lemma ploop_steps {St T R} (f : nat -> T -> St -> (res R * St) * list line) (l : list F) n m xs :
  (forall c x st r st' o, f c x st = ((Ok r, st'), o) -> stepwise l n (c * m) o (S c * m)) ->
  forall c st rs st' o, ploop f c xs st = ((Ok rs, st'), o) -> stepwise l n (c * m) o ((c + length xs) * m).
Proof.
  intros H. induction xs as [|x xs IH]; intros c st rs st' o; cbn [ploop].
  - intros [= <- <- <-]. rewrite Nat.add_0_r. constructor.
  - destruct (f c x st) as [[r s] b] eqn:E. destruct r as [r|e]; [|discriminate].
    destruct (ploop f (S c) xs s) as [[rs' s'] o'] eqn:E'. destruct rs' as [rs'|e]; [|discriminate]. cbn [bind]. intros [= <- <- <-].
    cbn [length]. rewrite Nat.add_succ_r. eapply stepwise_app; [eapply H, E|]. exact (IH _ _ _ _ _ E').
Qed.
(** the last step is not complete *)
Definition partial_step (l : list F) n i (o : list line) j : Prop :=
  exists o1 o2, i <= j /\ stepwise l n i o1 j /\ o = o1 ++ o2 /\ (o2 = [] \/ exists b rest, j < n /\ o2 = Percent j n :: b /\ progress b = [] /\ l = started b ++ rest).
Lemma ploop_partial {St T R} (f : nat -> T -> St -> (res R * St) * list line) (l : list F) n m xs :
  (forall c x st r st' o, f c x st = ((Ok r, st'), o) -> stepwise l n (c * m) o (S c * m)) ->
  forall N, N * m = n -> (forall c x st e st' o, c < N -> f c x st = ((Err e, st'), o) -> exists j, j <= n /\ partial_step l n (c * m) o j) ->
  forall c st e st' o, c + length xs = N -> ploop f c xs st = ((Err e, st'), o) -> exists j, j <= n /\ partial_step l n (c * m) o j.
Proof.
  intros H N HN G. induction xs as [|x xs IH]; intros c st e st' o L; cbn [ploop]; [discriminate|]. cbn [length] in L.
  destruct (f c x st) as [[r s] b] eqn:E. destruct r as [r|y].
  - destruct (ploop f (S c) xs s) as [[rs' s'] o'] eqn:E'. destruct rs' as [rs'|y]; [discriminate|]. cbn [bind]. intros [= <- <- <-].
    apply IH in E' as (j & Hj & o1 & o2 & Hi & S1 & -> & S2); [|lia]. exists j. split; [exact Hj|]. exists (b ++ o1), o2. split; [nia|].
    split; [eapply stepwise_app; [eapply H, E|exact S1]|]. split; [apply app_assoc|exact S2].
  - intros [= <- <- <-]. apply (G c x st y s b); [lia|exact E].
Qed.

Lemma ploop_loop {St T R} (f : nat -> T -> St -> (res R * St) * list line) (g : T -> St -> res R * St) l : (forall i x st, fst (f i x st) = g x st) ->
  forall i st, fst (ploop f i l st) = loop g l st.
Proof.
  intros H. induction l as [|x l IH]; intros i st; [reflexivity|]. cbn [ploop loop]. specialize (H i x st).
  destruct (f i x st) as [[r s] o]. cbn [fst] in H. rewrite <- H. destruct r as [r|e]; [|reflexivity].
  specialize (IH (S i) s). destruct (ploop f (S i) l s) as [[rs s'] o']. cbn [fst] in *. rewrite <- IH. reflexivity.
Qed.

(** a loop that succeeds *)
Lemma ploop_ok {St T R} (f : nat -> T -> St -> (res R * St) * list line) (P : nat -> T -> R -> list line -> Prop) l :
  (forall i x st r st' o, f i x st = ((Ok r, st'), o) -> P i x r o) ->
  forall i st rs st' o, ploop f i l st = ((Ok rs, st'), o) ->
  exists os, o = concat os /\ length rs = length l /\ length os = length l /\
    forall n x, nth_error l n = Some x -> exists r b, nth_error rs n = Some r /\ nth_error os n = Some b /\ P (i + n) x r b.
Proof.
  intros H. induction l as [|x l IH]; intros i st rs st' o; cbn [ploop].
  - intros [= <- <- <-]. exists []. split; [reflexivity|]. split; [reflexivity|]. split; [reflexivity|]. intros [|n] x; discriminate.
  - destruct (f i x st) as [[r s] b] eqn:E. destruct r as [r|e]; [|discriminate].
    destruct (ploop f (S i) l s) as [[rs' s'] o'] eqn:E'. destruct rs' as [rs'|e]; [|discriminate]. cbn [bind]. intros [= <- <- <-].
    destruct (IH _ _ _ _ _ E') as (os & -> & L1 & L2 & IH'). exists (b :: os). split; [reflexivity|]. cbn [length].
    split; [rewrite L1; reflexivity|]. split; [rewrite L2; reflexivity|]. intros [|n] y; cbn [nth_error].
    + intros [= <-]. exists r, b. rewrite Nat.add_0_r. split; [reflexivity|]. split; [reflexivity|]. eapply H, E.
    + intros Hy. destruct (IH' n y Hy) as (r' & b' & ? & ? & HP). exists r', b'. rewrite Nat.add_succ_r. auto.
Qed.

(** a loop that fails: some steps, then a failure *)
Lemma ploop_err {St T R} (f : nat -> T -> St -> (res R * St) * list line) (P : nat -> T -> list line -> Prop) (Q : nat -> T -> exn -> list line -> Prop) l :
  (forall i x st r st' o, f i x st = ((Ok r, st'), o) -> P i x o) ->
  (forall i x st e st' o, f i x st = ((Err e, st'), o) -> Q i x e o) ->
  forall i st e st' o, ploop f i l st = ((Err e, st'), o) ->
  exists l1 x l2 os b, l = l1 ++ x :: l2 /\ o = concat os ++ b /\ length os = length l1 /\
    (forall n y, nth_error l1 n = Some y -> exists c, nth_error os n = Some c /\ P (i + n) y c) /\ Q (i + length l1) x e b.
Proof.
  intros HP HQ. induction l as [|x l IH]; intros i st e st' o; cbn [ploop]; [discriminate|].
  destruct (f i x st) as [[r s] b] eqn:E. destruct r as [r|x0].
  - destruct (ploop f (S i) l s) as [[rs' s'] o'] eqn:E'. destruct rs' as [rs'|x0]; [discriminate|]. cbn [bind]. intros [= <- <- <-].
    destruct (IH _ _ _ _ _ E') as (l1 & y & l2 & os & b' & -> & -> & L & IH1 & IH2). exists (x :: l1), y, l2, (b :: os), b'.
    split; [reflexivity|]. split; [cbn [concat]; rewrite app_assoc; reflexivity|]. cbn [length]. split; [rewrite L; reflexivity|].
    rewrite Nat.add_succ_r. split; [|exact IH2]. intros [|n] z; cbn [nth_error].
    + intros [= <-]. exists b. rewrite Nat.add_0_r. split; [reflexivity|]. eapply HP, E.
    + intros Hz. rewrite Nat.add_succ_r. apply (IH1 n z Hz).
  - intros [= <- <- <-]. exists [], x, l, [], b. split; [reflexivity|]. split; [reflexivity|]. split; [reflexivity|].
    rewrite Nat.add_0_r. split; [intros [|n] y; discriminate|]. eapply HQ, E.
Qed.
End Loops.

Section Printing.
Context {k : Kern} (U : UK k) {V K St : Type}.
Implicit Types (a : @iargs k St) (X : @sigset (kA k) V K) (coeffs : list (list (kE k))) (st : St).

(** ** the same results *)
Lemma p_stage1_fst a b br nE st : fst (p_stage1 U a b br nE st) = stage1 U a b br nE st.
Proof.
  unfold p_stage1, stage1. destruct br as [br|]; [|reflexivity]. destruct (apply_prefilter U b br (remote_prefilter a) PNone); [|reflexivity].
  destruct (estimate _ _ _ _ _ _ _) as [[l|x] s]; reflexivity.
Qed.
Lemma p_coeffs_fst a X coeffs w st : fst (p_coeffs U a X coeffs w st) = impedance_coeffs U a X coeffs w st.
Proof.
  unfold p_coeffs, impedance_coeffs. cbv zeta. match goal with |- context [match ?m with Ok _ => _ | Err _ => _ end] => destruct m as [[[e b] br]|x] end; [|reflexivity].
  rewrite <- p_stage1_fst. destruct (p_stage1 U a b br (length e) st) as [[s1 s] o]. cbn [fst].
  destruct s1 as [[[[T be] iv1]|]|x]; try reflexivity. destruct (apply_prefilter U e be (ia_prefilter a) iv1); [|reflexivity].
  destruct (estimate _ _ _ _ _ _ _) as [[l|x] s']; reflexivity.
Qed.

(** ** what is printed *)
Lemma estimate_raises a outs ins ws pf iv st x ivs s : apply_prefilter U outs ins pf iv = Ok ivs -> estimate U a outs ins ws ivs st = (Err x, s) ->
  raises U a outs ins ws pf iv st x.
Proof.
  intros H1 H2. exists ivs. split; [exact H1|]. unfold estimate in H2. destruct (ia_real_pb a).
  - injection H2 as <- _. reflexivity.
  - eauto.
Qed.
Lemma raises_estimate a outs ins ws pf iv st x : raises U a outs ins ws pf iv st x ->
  exists ivs s, apply_prefilter U outs ins pf iv = Ok ivs /\ estimate U a outs ins ws ivs st = (Err x, s).
Proof.
  intros (ivs & H1 & H2). exists ivs. unfold estimate. destruct (ia_real_pb a).
  - subst x. eauto.
  - destruct H2 as (s & H2). eauto.
Qed.

(** the channels *)
Definition chan a X coeffs : res (list (list (kE k)) * list (list (kE k)) * option (list (list (kE k)))) :=
  let pick t := idx <- t_get (ss_tags X) t ;; mapM (fun i => nth_res coeffs i) idx in
  e <- pick (ia_elec a) ;; b <- pick (ia_mag a) ;;
  br <- match remote_name a with None => Ok None | Some r => x <- pick r ;; Ok (Some x) end ;; Ok (e, b, br).

Lemma pick_iff X coeffs t l : (idx <- t_get (ss_tags X) t ;; mapM (fun i => nth_res coeffs i) idx) = Ok l <->
  exists es, t_get (ss_tags X) t = Ok es /\ columns coeffs es l.
Proof.
  split.
  - intros H. destruct (t_get (ss_tags X) t) as [es|]; [|discriminate]. cbn [bind] in H. exists es. split; [reflexivity|]. apply columns_mapM, H.
  - intros (es & -> & H). cbn [bind]. apply columns_mapM, H.
Qed.
Lemma chan_iff a X coeffs e b br : chan a X coeffs = Ok (e, b, br) <->
  (exists es, t_get (ss_tags X) (ia_elec a) = Ok es /\ columns coeffs es e) /\ (exists bs, t_get (ss_tags X) (ia_mag a) = Ok bs /\ columns coeffs bs b) /\
  match br with
  | None => remote_name a = None
  | Some br => exists rn rs, remote_name a = Some rn /\ t_get (ss_tags X) rn = Ok rs /\ columns coeffs rs br
  end.
Proof.
  unfold chan. cbv zeta. rewrite <- !pick_iff. split.
  - destruct (bind (t_get (ss_tags X) (ia_elec a)) _) as [e'|]; [|discriminate]. cbn [bind].
    destruct (bind (t_get (ss_tags X) (ia_mag a)) _) as [b'|]; [|discriminate]. cbn [bind].
    destruct (remote_name a) as [rn|] eqn:R.
    + destruct (bind (t_get (ss_tags X) rn) _) as [br'|] eqn:P; [|discriminate]. cbn [bind]. intros [= -> -> <-].
      apply pick_iff in P as (rs & P). split; [reflexivity|]. split; [reflexivity|]. eauto.
    + cbn [bind]. intros [= -> -> <-]. auto.
  - intros (-> & -> & R). cbn [bind]. destruct br as [br|].
    + destruct R as (rn & rs & -> & R). assert (P : exists rs, t_get (ss_tags X) rn = Ok rs /\ columns coeffs rs br) by eauto. apply pick_iff in P. rewrite P. reflexivity.
    + rewrite R. reflexivity.
Qed.

Lemma first_iff a X coeffs st x : first_raises U a X coeffs st x <->
  exists e b br, chan a X coeffs = Ok (e, b, Some br) /\ raises U a b br (remote_weights a) (remote_prefilter a) PNone st x.
Proof.
  split.
  - intros (es & e & bs & b & rn & rs & br & ws & pf & E1 & E2 & B1 & B2 & W & R1 & R2 & L & O & H).
    apply list_or_remote in L. apply or_else_remote in O. apply with_remote_iff in W. subst ws pf. exists e, b, br. split; [|exact H].
    apply chan_iff. split; [eauto|]. split; [eauto|]. eauto.
  - intros (e & b & br & H & R). apply chan_iff in H as ((es & E1 & E2) & (bs & B1 & B2) & rn & rs & W & R1 & R2).
    exists es, e, bs, b, rn, rs, br, (remote_weights a), (remote_prefilter a). do 4 (split; [assumption|]). split; [apply with_remote_iff, W|].
    do 2 (split; [assumption|]). split; [apply list_or_remote; reflexivity|]. split; [apply or_else_remote; reflexivity|exact R].
Qed.

Lemma last_iff a X coeffs st x : last_raises U a X coeffs st x <->
  (exists e b, chan a X coeffs = Ok (e, b, None) /\ raises U a e b (ia_weights a) (ia_prefilter a) PNone st x) \/
  (exists e b br iv0 l T st1, chan a X coeffs = Ok (e, b, Some br) /\ apply_prefilter U b br (remote_prefilter a) PNone = Ok iv0 /\
     estimate U a b br (remote_weights a) iv0 st = (Ok l, st1) /\ rows_of ValueError (map fst l) = Ok T /\
     raises U a e (u_dot k U T br) (ia_weights a) (ia_prefilter a) (PEach (repeat (merged (map snd l)) (length e))) st1 x).
Proof.
  split.
  - intros (HR & e & inputs & given & st1 & (es & bs & b & E1 & E2 & B1 & B2 & H) & R).
    destruct H as [(N & -> & -> & ->)|(rn & rs & br & ws & pf & l & T & m & W & R1 & R2 & L & O & S & ET & M & -> & ->)].
    + left. exists e, b. split; [|exact R]. apply no_remote_iff in N. apply chan_iff. split; [eauto|]. split; [eauto|]. exact N.
    + right. apply list_or_remote in L. apply or_else_remote in O. apply rejected_merged in M. subst ws pf m.
      assert (Hreal : ia_real_pb a = false).
      { destruct (ia_real_pb a); [|reflexivity]. specialize (HR eq_refl). apply no_remote_iff in HR. apply with_remote_iff in W. congruence. }
      destruct (proj1 (stage_estimate U a _ _ _ _ _ _ _ _) (conj Hreal S)) as (iv0 & Q1 & Q2).
      exists e, b, br, iv0, l, T, st1. apply with_remote_iff in W. split; [apply chan_iff; split; [eauto|]; split; [eauto|]; eauto|].
      split; [exact Q1|]. split; [exact Q2|]. split; [apply rows_of_estimates, ET|]. rewrite <- (Forall2_len _ _ _ E2). exact R.
  - intros [(e & b & H & R)|(e & b & br & iv0 & l & T & st1 & H & Q1 & Q2 & Q3 & R)].
    + apply chan_iff in H as ((es & E1 & E2) & (bs & B1 & B2) & N). apply no_remote_iff in N. split; [auto|].
      exists e, b, PNone, st. split; [|exact R]. exists es, bs, b. do 4 (split; [assumption|]). left. auto.
    + apply chan_iff in H as ((es & E1 & E2) & (bs & B1 & B2) & rn & rs & W & R1 & R2).
      assert (Hreal : ia_real_pb a = false) by (unfold estimate in Q2; destruct (ia_real_pb a); [discriminate|reflexivity]).
      split; [congruence|]. exists e, (u_dot k U T br), (PEach (repeat (merged (map snd l)) (length e))), st1. split; [|exact R].
      exists es, bs, b. do 4 (split; [assumption|]). right. exists rn, rs, br, (remote_weights a), (remote_prefilter a), l, T, (merged (map snd l)).
      split; [apply with_remote_iff, W|]. do 2 (split; [assumption|]). split; [apply list_or_remote; reflexivity|]. split; [apply or_else_remote; reflexivity|].
      split; [apply (stage_estimate U a); eauto|]. split; [eapply rows_of_estimates, Q3|]. split; [apply rejected_merged; reflexivity|].
      split; [reflexivity|]. rewrite (Forall2_len _ _ _ E2). reflexivity.
Qed.

Definition shapeless (r : ires U) : Prop := exists n m, ir_z U r = NaNs n m.
Lemma p_coeffs_out a X coeffs w st r st' o : p_coeffs U a X coeffs w st = ((r, st'), o) ->
  (o = [] /\ (forall x, ~ first_raises U a X coeffs st x) /\ (forall x, ~ last_raises U a X coeffs st x) /\
     forall y, r = Ok y -> exists z err, ir_z U y = Values z /\ ir_err U y = Values err) \/
  (exists x, o = [Failed x] /\ (first_raises U a X coeffs st x \/ last_raises U a X coeffs st x) /\
     ((ia_silent a = true /\ exists y, r = Ok y /\ shapeless y) \/ (ia_silent a = false /\ r = Err x))).
Proof.
  unfold p_coeffs. cbv zeta. change (bind (bind (t_get (ss_tags X) (ia_elec a)) _) _) with (chan a X coeffs).
  destruct (chan a X coeffs) as [[[e b] br]|x0] eqn:C.
  2: { intros [= <- <- <-]. left. split; [reflexivity|]. split; [intros x H; apply first_iff in H as (? & ? & ? & ? & _); congruence|].
       split; [|discriminate]. intros x H. apply last_iff in H as [(? & ? & ? & _)|(? & ? & ? & ? & ? & ? & ? & ? & _)]; congruence. }
  unfold p_stage1. destruct br as [br|].
  - destruct (apply_prefilter U b br (remote_prefilter a) PNone) as [iv0|x0] eqn:P1.
    2: { intros [= <- <- <-]. left. split; [reflexivity|]. split; [|split; [|discriminate]].
         - intros x H. apply first_iff in H as (e' & b' & br' & C' & R). assert (Q : (e', b', Some br') = (e, b, Some br)) by congruence. injection Q as -> -> ->.
           destruct R as (ivs & R & _). congruence.
         - intros x H. apply last_iff in H as [(? & ? & ? & _)|(e' & b' & br' & iv0 & l & T & st1 & C' & Q1 & _)]; [congruence|].
           assert (Q : (e', b', Some br') = (e, b, Some br)) by congruence. injection Q as -> -> ->. congruence. }
    destruct (estimate U a b br (remote_weights a) iv0 st) as [[l|x0] s1] eqn:E1.
    + assert (NF : forall x, ~ first_raises U a X coeffs st x).
      { intros x H. apply first_iff in H as (e' & b' & br' & C' & R). assert (Q : (e', b', Some br') = (e, b, Some br)) by congruence. injection Q as -> -> ->.
        apply raises_estimate in R as (ivs & s & R1 & R2). assert (ivs = iv0) by congruence. subst ivs. congruence. }
      assert (NL : forall x, last_raises U a X coeffs st x <-> exists T, rows_of ValueError (map fst l) = Ok T /\
                     raises U a e (u_dot k U T br) (ia_weights a) (ia_prefilter a) (PEach (repeat (merged (map snd l)) (length e))) s1 x).
      { intros x. rewrite last_iff. split.
        - intros [(? & ? & ? & _)|(e' & b' & br' & iv0' & l' & T & st1 & C' & Q1 & Q2 & Q3 & R)]; [congruence|].
          assert (Q : (e', b', Some br') = (e, b, Some br)) by congruence. injection Q as -> -> ->.
          assert (iv0' = iv0) by congruence. subst iv0'. rewrite E1 in Q2. injection Q2 as <- <-. eauto.
        - intros (T & Q3 & R). right. exists e, b, br, iv0, l, T, s1. auto 10. }
      destruct (rows_of ValueError (map fst l)) as [T|x0] eqn:RT; cbn [bind].
      * destruct (apply_prefilter U e (u_dot k U T br) (ia_prefilter a) _) as [iv2|x0] eqn:P2.
        2: { intros [= <- <- <-]. left. split; [reflexivity|]. split; [exact NF|]. split; [|discriminate].
             intros x H. apply NL in H as (T' & [= <-] & ivs & R & _). congruence. }
        destruct (estimate U a e (u_dot k U T br) (ia_weights a) iv2 s1) as [[l2|x0] s2] eqn:E2.
        -- intros [= <- <- <-]. left. split; [reflexivity|]. split; [exact NF|]. split.
           ++ intros x H. apply NL in H as (T' & [= <-] & R). apply raises_estimate in R as (ivs & s & R1 & R2). assert (ivs = iv2) by congruence. subst ivs. congruence.
           ++ intros y H. destruct (rows_of IndexError (map fst l2)) as [z|]; [|discriminate]. cbn [bind] in H.
              destruct (u_error k U e _ z _) as [err|]; [|discriminate]. cbn [bind] in H. injection H as <-. cbn. eauto.
        -- intros [= <- <- <-]. right. exists x0. split; [reflexivity|]. split; [right; apply NL; exists T; split; [reflexivity|]; eapply estimate_raises; eassumption|].
           destruct (ia_silent a); [left|right; auto]. split; [reflexivity|]. eexists. split; [reflexivity|]. eexists _, _. reflexivity.
      * intros [= <- <- <-]. left. split; [reflexivity|]. split; [exact NF|]. split; [|discriminate]. intros x H. apply NL in H as (T' & [=] & _).
    + assert (F : first_raises U a X coeffs st x0) by (apply first_iff; exists e, b, br; split; [exact C|]; eapply estimate_raises; eassumption).
      destruct (ia_silent a) eqn:S; intros [= <- <- <-]; right; exists x0; (split; [reflexivity|]); (split; [left; exact F|]).
      * left. split; [reflexivity|]. eexists. split; [reflexivity|]. eexists _, _. reflexivity.
      * right. auto.
  - assert (NF : forall x, ~ first_raises U a X coeffs st x) by (intros x H; apply first_iff in H as (? & ? & ? & ? & _); congruence).
    assert (NL : forall x, last_raises U a X coeffs st x <-> raises U a e b (ia_weights a) (ia_prefilter a) PNone st x).
    { intros x. rewrite last_iff. split.
      - intros [(e' & b' & C' & R)|(? & ? & ? & ? & ? & ? & ? & ? & _)]; [|congruence]. assert (Q : (e', b', @None (list (list (kE k)))) = (e, b, None)) by congruence. injection Q as -> ->. exact R.
      - intros R. left. eauto. }
    destruct (apply_prefilter U e b (ia_prefilter a) PNone) as [iv2|x0] eqn:P2.
    2: { intros [= <- <- <-]. left. split; [reflexivity|]. split; [exact NF|]. split; [|discriminate]. intros x H. apply NL in H as (ivs & R & _). congruence. }
    destruct (estimate U a e b (ia_weights a) iv2 st) as [[l2|x0] s2] eqn:E2.
    + intros [= <- <- <-]. left. split; [reflexivity|]. split; [exact NF|]. split.
      * intros x H. apply NL in H. apply raises_estimate in H as (ivs & s & R1 & R2). assert (ivs = iv2) by congruence. subst ivs. congruence.
      * intros y H. destruct (rows_of IndexError (map fst l2)) as [z|]; [|discriminate]. cbn [bind] in H.
        destruct (u_error k U e _ z _) as [err|]; [|discriminate]. cbn [bind] in H. injection H as <-. cbn. eauto.
    + intros [= <- <- <-]. right. exists x0. split; [reflexivity|]. split; [right; apply NL; eapply estimate_raises; eassumption|].
      destruct (ia_silent a); [left|right; auto]. split; [reflexivity|]. eexists. split; [reflexivity|]. eexists _, _. reflexivity.
Qed.

Section Data.
Variable fourier : @sigset (kA k) V K -> num (kA k) -> res (list (list (kE k)) * windows).
Lemma p_one_fst a X f st : fst (p_one U fourier a X f st) = impedance_one U fourier a X f st.
Proof.
  unfold p_one, impedance_one. match goal with |- context [match ?m with Ok _ => _ | Err _ => _ end] => destruct m as [[[Ne Nb] Nr]|x] end; [|reflexivity].
  unfold say. cbn [fst]. destruct (fourier X f) as [[c w]|x]; [apply p_coeffs_fst|reflexivity].
Qed.
Lemma results_loop a X l : forall st, impedance_results U fourier a X l st = loop (impedance_one U fourier a X) l st.
Proof.
  induction l as [|f l IH]; intros st; [reflexivity|]. cbn [impedance_results loop]. destruct (impedance_one U fourier a X f st) as [[r|x] s]; [|reflexivity].
  rewrite IH. reflexivity.
Qed.
Lemma p_impedance_fst a X l st : fst (p_impedance U fourier a X l st) = impedance U fourier a X l st.
Proof.
  unfold p_impedance, impedance. rewrite results_loop, <- (ploop_loop (fun _ => p_one U fourier a X) _ l (fun _ x s => p_one_fst a X x s) 0 st).
  destruct (ploop _ 0 l st) as [[rs s] o]. reflexivity.
Qed.

Lemma p_one_out a X f st r st' o : p_one U fourier a X f st = ((r, st'), o) ->
  (~ tags_known a X /\ o = [] /\ r = Err KeyError) \/
  (tags_known a X /\ (exists x, fourier X f = Err x) /\ o = [Starting f] /\ exists y, r = Ok y /\ shapeless y) \/
  (tags_known a X /\ exists coeffs w o', fourier X f = Ok (coeffs, w) /\ p_coeffs U a X coeffs w st = ((r, st'), o') /\ o = Starting f :: o').
Proof.
  unfold p_one. intros H.
  assert (TK : tags_known a X <-> exists c, (e <- t_get (ss_tags X) (ia_elec a) ;; b <- t_get (ss_tags X) (ia_mag a) ;;
         r <- match remote_name a with None => Ok [] | Some r => t_get (ss_tags X) r end ;; Ok (length e, length b, length r)) = Ok c).
  { unfold tags_known. split.
    - intros ((es & ->) & (bs & ->) & R). cbn [bind]. destruct (remote_name a) as [rn|] eqn:N; [|cbn [bind]; eauto].
      destruct (R rn) as (rs & ->); [apply with_remote_iff, N|]. cbn [bind]. eauto.
    - intros (c & Hc). destruct (t_get (ss_tags X) (ia_elec a)) as [es|]; [|discriminate]. destruct (t_get (ss_tags X) (ia_mag a)) as [bs|]; [|discriminate]. cbn [bind] in Hc.
      split; [eauto|]. split; [eauto|]. intros rn W. apply with_remote_iff in W. rewrite W in Hc. destruct (t_get (ss_tags X) rn) as [rs|]; [eauto|discriminate]. }
  assert (KE : forall x, (e <- t_get (ss_tags X) (ia_elec a) ;; b <- t_get (ss_tags X) (ia_mag a) ;;
         r <- match remote_name a with None => Ok [] | Some r => t_get (ss_tags X) r end ;; Ok (length e, length b, length r)) = Err x -> x = KeyError).
  { intros x. assert (G : forall t y, t_get (ss_tags X) t = Err y -> y = KeyError) by (intros t y; unfold t_get; destruct (dget t (t_dict (ss_tags X))); [discriminate|intros [= <-]; reflexivity]).
    destruct (t_get (ss_tags X) (ia_elec a)) as [es|] eqn:G1; [|intros [= <-]; eapply G, G1]. destruct (t_get (ss_tags X) (ia_mag a)) as [bs|] eqn:G2; [|intros [= <-]; eapply G, G2]. cbn [bind].
    destruct (remote_name a) as [rn|]; [|discriminate]. destruct (t_get (ss_tags X) rn) as [rs|] eqn:G3; [discriminate|]. intros [= <-]. eapply G, G3. }
  destruct (bind (t_get (ss_tags X) (ia_elec a)) _) as [[[Ne Nb] Nr]|x0].
  - right. assert (T : tags_known a X) by (apply TK; eauto). destruct (fourier X f) as [[coeffs w]|x].
    + right. split; [exact T|]. unfold say in H. destruct (p_coeffs U a X coeffs w st) as [[r' s'] o'] eqn:E. cbn [fst snd] in H. injection H as <- <- <-.
      exists coeffs, w, o'. auto.
    + left. injection H as <- <- <-. split; [exact T|]. split; [eauto|]. split; [reflexivity|]. eexists. split; [reflexivity|]. eexists _, _. reflexivity.
  - left. injection H as <- <- <-. split; [intros T; apply TK in T as (c & Hc); discriminate|]. split; [reflexivity|]. rewrite (KE x0 eq_refl). reflexivity.
Qed.

Lemma p_one_told a X f st r st' o : p_one U fourier a X f st = ((Ok r, st'), o) -> told U fourier a X f r o.
Proof.
  intros H. apply p_one_out in H as [(_ & _ & H)|[(_ & Hf & -> & y & [= <-] & S)|(_ & coeffs & w & o' & Hf & H & ->)]]; [discriminate| |].
  - right. left. auto.
  - apply p_coeffs_out in H as [(-> & _ & _ & H)|(x & -> & _ & [(S & y & [= <-] & Y)|(_ & H)])]; [| |discriminate].
    + left. split; [reflexivity|]. apply H. reflexivity.
    + right. right. split; [exact S|]. split; [eauto|]. split; [exact Y|]. eauto.
Qed.

Lemma p_one_err a X f st e st' o : p_one U fourier a X f st = ((Err e, st'), o) ->
  (~ tags_known a X /\ o = [] /\ e = KeyError) \/ (tags_known a X /\ (o = [Starting f] \/ (ia_silent a = false /\ o = [Starting f; Failed e]))).
Proof.
  intros H. apply p_one_out in H as [(N & -> & [= <-])|[(_ & _ & _ & y & [=] & _)|(T & coeffs & w & o' & Hf & H & ->)]]; [auto|].
  right. split; [exact T|]. apply p_coeffs_out in H as [(-> & _)|(x & -> & _ & [(_ & y & [=] & _)|(S & [= <-])])]; auto.
Qed.

Lemma told_started a X f r o : told U fourier a X f r o -> started o = [f] /\ progress o = [].
Proof. intros [(-> & _)|[(-> & _)|(_ & _ & _ & x & ->)]]; split; reflexivity. Qed.

Lemma reported_one a X f st x : In (Failed x) (snd (p_one U fourier a X f st)) <->
  exists coeffs w, fourier X f = Ok (coeffs, w) /\ (first_raises U a X coeffs st x \/ last_raises U a X coeffs st x).
Proof.
  destruct (p_one U fourier a X f st) as [[r s] o] eqn:E. cbn [snd]. pose proof E as E0. apply p_one_out in E as [(N & -> & _)|[(_ & (y & Hf) & -> & _)|(_ & coeffs & w & o' & Hf & H & ->)]].
  - split; [intros []|]. intros (coeffs & w & Hf & R). exfalso. apply N. unfold tags_known.
    assert (C : exists e b br, chan a X coeffs = Ok (e, b, br)).
    { destruct R as [R|R]; [apply first_iff in R as (? & ? & ? & ? & _); eauto|apply last_iff in R as [(? & ? & ? & _)|(? & ? & ? & ? & ? & ? & ? & ? & _)]; eauto]. }
    destruct C as (e & b & br & C). apply chan_iff in C as ((es & E1 & _) & (bs & B1 & _) & R1). split; [eauto|]. split; [eauto|].
    intros rn W. apply with_remote_iff in W. destruct br as [br|]; [|congruence]. destruct R1 as (rn' & rs & W' & R1 & _). assert (rn' = rn) by congruence. subst rn'. eauto.
  - split; [intros [[=]|[]]|]. intros (coeffs & w & H & _). congruence.
  - apply p_coeffs_out in H as [(-> & N1 & N2 & _)|(x' & -> & R & _)].
    + split; [intros [[=]|[]]|]. intros (c & w' & H & R). assert (Q : (c, w') = (coeffs, w)) by congruence. injection Q as -> ->. exfalso. destruct R; [eapply N1|eapply N2]; eassumption.
    + split.
      * intros [[=]|[[= ->]|[]]]. eauto.
      * intros (c & w' & H & R'). assert (Q : (c, w') = (coeffs, w)) by congruence. injection Q as -> ->. right. left. f_equal.
        assert (D : forall x1 x2, first_raises U a X coeffs st x1 \/ last_raises U a X coeffs st x1 -> first_raises U a X coeffs st x2 \/ last_raises U a X coeffs st x2 -> x1 = x2); [|apply (D _ _ R R')].
        clear. intros x1 x2. rewrite !first_iff, !last_iff.
        assert (RR : forall outs ins ws pf iv st y1 y2, raises U a outs ins ws pf iv st y1 -> raises U a outs ins ws pf iv st y2 -> y1 = y2).
        { intros outs ins ws pf iv s y1 y2 H1 H2. apply raises_estimate in H1 as (i1 & s1 & A1 & B1). apply raises_estimate in H2 as (i2 & s2 & A2 & B2).
          assert (i1 = i2) by congruence. subst. congruence. }
        assert (RE : forall outs ins ws pf iv st y ivs l s, raises U a outs ins ws pf iv st y -> apply_prefilter U outs ins pf iv = Ok ivs -> estimate U a outs ins ws ivs st = (Ok l, s) -> False).
        { intros outs ins ws pf iv s y ivs l s' H1 H2 H3. apply raises_estimate in H1 as (i1 & s1 & A1 & B1). assert (i1 = ivs) by congruence. subst. congruence. }
        intros [(e & b & br & C & R)|[(e & b & C & R)|(e & b & br & iv0 & l & T & s1 & C & P & Q & S & R)]]
               [(e' & b' & br' & C' & R')|[(e' & b' & C' & R')|(e' & b' & br' & iv0' & l' & T' & s1' & C' & P' & Q' & S' & R')]]; rewrite C in C'; try discriminate; injection C'; intros; subst.
        -- eapply RR; eassumption.
        -- exfalso. exact (RE _ _ _ _ _ _ _ _ _ _ R P' Q').
        -- eapply RR; eassumption.
        -- exfalso. exact (RE _ _ _ _ _ _ _ _ _ _ R' P Q).
        -- assert (iv0' = iv0) by congruence. subst iv0'. rewrite Q in Q'. injection Q' as <- <-. rewrite S in S'. injection S' as <-. eapply RR; eassumption.
Qed.

Lemma p_impedance_ok a X l st rs st' o : p_impedance U fourier a X l st = ((Ok rs, st'), o) ->
  exists os, o = concat os /\ length rs = length l /\ length os = length l /\
    forall n f, nth_error l n = Some f -> exists r b, nth_error rs n = Some r /\ nth_error os n = Some b /\ told U fourier a X f r b.
Proof.
  unfold p_impedance. destruct (ploop _ 0 l st) as [[rs' s] o'] eqn:E. intros H. destruct rs' as [rs'|]; [|discriminate]. cbn [bind] in H.
  assert (Q : rs' = rs /\ o' = o). { destruct (stack _); [|discriminate]. cbn [bind] in H. destruct (stack _); [|discriminate]. cbn [bind] in H. destruct (stack _); [|discriminate]. injection H as <- _ <-. auto. }
  destruct Q as [-> ->]. apply (ploop_ok _ (fun _ f r b => told U fourier a X f r b)) in E; [exact E|]. intros i f s0 r s1 b. apply p_one_told.
Qed.

Lemma concat_started (P : num (kA k) -> list (line (num (kA k))) -> Prop) l : forall os, length os = length l -> (forall f b, P f b -> started b = [f] /\ progress b = []) ->
  (forall n f, nth_error l n = Some f -> exists b, nth_error os n = Some b /\ P f b) -> started (concat os) = l /\ progress (concat os) = [].
Proof.
  induction l as [|f l IH]; intros [|b os] L H0 H; try discriminate; [split; reflexivity|]. injection L as L.
  destruct (H 0 f eq_refl) as (b' & [= <-] & Pb). destruct (H0 _ _ Pb) as [S1 S2]. destruct (IH os L H0 (fun n => H (S n))) as [S3 S4].
  cbn [concat]. rewrite started_app, progress_app, S1, S2, S3, S4. split; reflexivity.
Qed.

Lemma p_impedance_err a X l st e st' o : p_impedance U fourier a X l st = ((Err e, st'), o) ->
  (~ tags_known a X /\ e = KeyError /\ o = []) \/
  (tags_known a X /\ e = ValueError /\ started o = l /\ progress o = []) \/
  (tags_known a X /\ exists l1 f l2 os b, l = l1 ++ f :: l2 /\ o = concat os ++ b /\ length os = length l1 /\
    (forall n g, nth_error l1 n = Some g -> exists c r, nth_error os n = Some c /\ told U fourier a X g r c) /\
    (b = [Starting f] \/ (ia_silent a = false /\ b = [Starting f; Failed e]))).
Proof.
  unfold p_impedance. destruct (ploop _ 0 l st) as [[rs' s] o'] eqn:E. intros H. destruct rs' as [rs'|x0].
  - right. left. cbn [bind] in H.
    assert (Q : e = ValueError /\ o' = o /\ l <> []).
    { assert (G : forall shapes y, stack shapes = Err y -> y = ValueError /\ shapes <> []).
      { intros [|[r c] shapes] y; unfold stack; [discriminate|]. destruct (forallb _ _); [discriminate|]. intros [= <-]. split; [reflexivity|discriminate]. }
      assert (N : rs' <> [] -> l <> []) by (intros Hn ->; cbn in E; congruence).
      assert (ST : forall u1 u2 u3, (_ <- stack u1 ;; _ <- stack u2 ;; _ <- stack u3 ;; Ok rs') = Err e -> (rs' = [] -> u1 = [] /\ u2 = [] /\ u3 = []) -> e = ValueError /\ rs' <> []).
      { intros u1 u2 u3 Hs Hn. destruct (stack u1) eqn:G1; cbn [bind] in Hs.
        2: { apply G in G1 as [-> G1]. injection Hs as <-. split; [reflexivity|]. intros Z. apply G1, (Hn Z). }
        destruct (stack u2) eqn:G2; cbn [bind] in Hs.
        2: { apply G in G2 as [-> G2]. injection Hs as <-. split; [reflexivity|]. intros Z. apply G2, (Hn Z). }
        destruct (stack u3) eqn:G3; cbn [bind] in Hs; [discriminate|].
        apply G in G3 as [-> G3]. injection Hs as <-. split; [reflexivity|]. intros Z. apply G3, (Hn Z). }
      assert (H1 := f_equal (fun p => fst (fst p)) H). assert (H2 := f_equal snd H). cbn [fst snd] in H1, H2.
      apply ST in H1 as [-> H1]; [|intros ->; auto]. split; [reflexivity|]. split; [exact H2|apply N, H1]. }
    destruct Q as (-> & -> & NE).
    assert (T : tags_known a X).
    { destruct l as [|f l]; [contradiction|]. cbn [ploop] in E. destruct (p_one U fourier a X f st) as [[r1 s1] b1] eqn:E1. destruct r1 as [r1|]; [|discriminate].
      apply p_one_out in E1 as [(_ & _ & [=])|[(T & _)|(T & _)]]; exact T. }
    split; [exact T|]. split; [reflexivity|].
    apply (ploop_ok _ (fun _ f r b => told U fourier a X f r b)) in E as (os & -> & L1 & L2 & E); [|intros i f s0 r s1 b; apply p_one_told].
    apply (concat_started (fun f b => exists r, told U fourier a X f r b)); [exact L2| |].
    + intros f b (r & Hr). eapply told_started, Hr.
    + intros n f Hn. destruct (E n f Hn) as (r & b & _ & Hb & Ht). eauto.
  - cbn [bind] in H. injection H as <- _ <-.
    apply (ploop_err _ (fun _ f b => tags_known a X /\ exists r, told U fourier a X f r b)
             (fun _ f e b => (~ tags_known a X /\ b = [] /\ e = KeyError) \/ (tags_known a X /\ (b = [Starting f] \/ (ia_silent a = false /\ b = [Starting f; Failed e]))))) in E.
    + destruct E as (l1 & f & l2 & os & b & -> & -> & L & H1 & H2). destruct H2 as [(N & -> & ->)|(T & H2)].
      * left. split; [exact N|]. split; [reflexivity|]. destruct l1 as [|g l1]; [destruct os; [reflexivity|discriminate]|].
        destruct (H1 0 g eq_refl) as (c & _ & T & _). contradiction.
      * right. right. split; [exact T|]. exists l1, f, l2, os, b. split; [reflexivity|]. split; [reflexivity|]. split; [exact L|]. split; [|exact H2].
        intros n g Hn. destruct (H1 n g Hn) as (c & Hc & _ & r & Hr). eauto.
    + intros i f s0 r s1 b E1. split; [|exists r; eapply p_one_told, E1]. apply p_one_out in E1 as [(_ & _ & [=])|[(T & _)|(T & _)]]; exact T.
    + intros i f s0 x s1 b E1. eapply p_one_err, E1.
Qed.

(** all lines of one call *)
Lemma p_impedance_lines a X l st r st' o : p_impedance U fourier a X l st = ((r, st'), o) ->
  progress o = [] /\ exists rest, l = started o ++ rest /\ forall rs, r = Ok rs -> rest = [].
Proof.
  intros H. destruct r as [rs|e].
  - apply p_impedance_ok in H as (os & -> & _ & L & H).
    destruct (concat_started (fun f b => exists r, told U fourier a X f r b) l os L) as [S1 S2].
    + intros f b (r & Hr). eapply told_started, Hr.
    + intros n f Hn. destruct (H n f Hn) as (r & b & _ & Hb & Ht). eauto.
    + split; [exact S2|]. exists []. rewrite app_nil_r, S1. auto.
  - apply p_impedance_err in H as [(_ & _ & ->)|[(_ & _ & S1 & S2)|(_ & l1 & f & l2 & os & b & -> & -> & L & H & Hb)]].
    + split; [reflexivity|]. exists l. split; [reflexivity|discriminate].
    + split; [exact S2|]. exists []. rewrite app_nil_r, S1. split; [reflexivity|discriminate].
    + destruct (concat_started (fun f b => exists r, told U fourier a X f r b) l1 os L) as [S1 S2].
      * intros g c (r & Hr). eapply told_started, Hr.
      * intros n g Hn. destruct (H n g Hn) as (c & r & Hc & Hr). eauto.
      * rewrite started_app, progress_app, S1, S2. assert (B : started b = [f] /\ progress b = []) by (destruct Hb as [->|[_ ->]]; split; reflexivity). destruct B as [-> ->].
        split; [reflexivity|]. exists l2. rewrite <- app_assoc. split; [reflexivity|discriminate].
Qed.

Section Mass.
Variable kone : K.
Variable rorder : @inventory (kA k) V K -> list (num (kA k)).
Lemma p_combination_fst inv names l_freq ivs a n c rind st :
  fst (p_combination U kone fourier rorder inv names l_freq ivs a n c rind st) = one_combination U kone fourier rorder inv names l_freq ivs a rind st.
Proof.
  unfold p_combination, one_combination. match goal with |- context [match ?m with Ok _ => _ | Err _ => _ end] => destruct m as [[rt d]|x] end; [|reflexivity].
  cbv zeta. match goal with |- context [loop ?g ivs st] => rewrite <- (ploop_loop (fun i iv st => say [Percent (c * length ivs + i) (n * length ivs)]
        match extract_t kone d (fst iv) (snd iv) false with
        | Err x => ((Err x, st), [])
        | Ok rdata => p_impedance U fourier (MassModel.with_remote a (match rt with [] => None | _ => Some "Bremote"%string end)) rdata l_freq st
        end) g ivs) with (i := 0) end.
  - destruct (ploop _ 0 ivs st) as [[rs s] o]. reflexivity.
  - intros i iv s. unfold say. cbn [fst]. destruct (extract_t kone d (fst iv) (snd iv) false); [apply p_impedance_fst|reflexivity].
Qed.
Lemma p_mass_fst inv names l_freq ivs a cb st :
  fst (p_mass U kone fourier rorder inv names l_freq ivs a cb st) = impedance_mass_proc U kone fourier rorder inv names l_freq ivs a cb st.
Proof. unfold p_mass, impedance_mass_proc. apply ploop_loop. intros. apply p_combination_fst. Qed.

Lemma p_combination_ok inv names l_freq ivs a n c rind st r st' o :
  p_combination U kone fourier rorder inv names l_freq ivs a n c rind st = ((Ok r, st'), o) -> stepwise l_freq (n * length ivs) (c * length ivs) o (S c * length ivs).
Proof.
  unfold p_combination. destruct (bind (remote_tags names rind) _) as [[rt d]|x]; [|discriminate]. cbv zeta.
  set (body := fun i iv st => say _ _). destruct (ploop body 0 ivs st) as [[rs s] o'] eqn:E. destruct rs as [rs|]; [|discriminate]. cbn [bind]. intros [= _ _ <-].
  assert (G : forall xs i st rs st' o, ploop body i xs st = ((Ok rs, st'), o) -> stepwise l_freq (n * length ivs) (c * length ivs + i) o (c * length ivs + i + length xs)).
  { clear. induction xs as [|x xs IH]; intros i st rs st' o; cbn [ploop].
    - intros [= <- <- <-]. rewrite Nat.add_0_r. constructor.
    - unfold body at 1, say. destruct (extract_t kone d (fst x) (snd x) false) as [rd|e]; [|cbn [fst]; discriminate].
      destruct (p_impedance U fourier _ rd l_freq st) as [[r s] b] eqn:E. cbn [fst snd]. destruct r as [r|e]; [|discriminate].
      destruct (ploop body (S i) xs s) as [[rs' s'] o'] eqn:E'. destruct rs' as [rs'|e]; [|discriminate]. cbn [bind]. intros [= <- <- <-].
      apply p_impedance_lines in E as (P & rest & L & Z). specialize (Z r eq_refl). subst rest. rewrite app_nil_r in L.
      apply IH in E'. cbn [length]. cbn [app]. apply one_step; [exact P|symmetry; exact L|].
      rewrite Nat.add_succ_r in E'. replace (c * length ivs + i + S (length xs)) with (S (c * length ivs + i) + length xs) by lia. exact E'. }
  apply G in E. rewrite Nat.add_0_r in E. replace (S c * length ivs) with (c * length ivs + length ivs) by (cbn; lia). exact E.
Qed.
Lemma p_combination_err inv names l_freq ivs a n c rind st e st' o : c < n ->
  p_combination U kone fourier rorder inv names l_freq ivs a n c rind st = ((Err e, st'), o) ->
  exists j, j <= n * length ivs /\ partial_step l_freq (n * length ivs) (c * length ivs) o j.
Proof.
  intros Hc. unfold p_combination. destruct (bind (remote_tags names rind) _) as [[rt d]|x].
  2: { intros [= _ _ <-]. exists (c * length ivs). split; [nia|]. exists [], []. split; [lia|]. split; [constructor|]. auto. }
  cbv zeta. set (body := fun i iv st => say _ _). destruct (ploop body 0 ivs st) as [[rs s] o'] eqn:E. destruct rs as [rs|x]; [discriminate|]. cbn [bind]. intros [= _ _ <-].
  assert (G : forall xs i st e st' o, i + length xs = length ivs -> ploop body i xs st = ((Err e, st'), o) ->
             exists j, j <= n * length ivs /\ partial_step l_freq (n * length ivs) (c * length ivs + i) o j).
  { clear E. induction xs as [|y xs IH]; intros i s0 e0 s1 o0 L; cbn [ploop]; [discriminate|]. cbn [length] in L.
    assert (Hi : c * length ivs + i < n * length ivs) by nia.
    unfold body at 1, say. destruct (extract_t kone d (fst y) (snd y) false) as [rd|e1].
    - destruct (p_impedance U fourier _ rd l_freq s0) as [[r s2] b] eqn:E1. cbn [fst snd]. apply p_impedance_lines in E1 as (P & rest & Lf & Z). destruct r as [r|e1].
      + specialize (Z r eq_refl). subst rest. rewrite app_nil_r in Lf.
        destruct (ploop body (S i) xs s2) as [[rs' s'] o2] eqn:E'. destruct rs' as [rs'|e2]; [discriminate|]. cbn [bind]. intros [= <- <- <-].
        apply IH in E' as (j & Hj & o3 & o4 & Hij & S1 & -> & S2); [|lia]. exists j. split; [exact Hj|].
        exists (Percent (c * length ivs + i) (n * length ivs) :: b ++ o3), o4. split; [lia|]. rewrite Nat.add_succ_r in S1. split; [apply one_step; auto|].
        split; [cbn [app]; rewrite app_assoc; reflexivity|exact S2].
      + intros [= <- <- <-]. exists (c * length ivs + i). split; [lia|]. exists [], (Percent (c * length ivs + i) (n * length ivs) :: b). split; [lia|]. split; [constructor|].
        split; [reflexivity|]. right. exists b, rest. auto.
    - cbn [fst snd]. intros [= <- <- <-]. exists (c * length ivs + i). split; [lia|]. exists [], [Percent (c * length ivs + i) (n * length ivs)]. split; [lia|]. split; [constructor|].
      split; [reflexivity|]. right. exists [], l_freq. auto. }
  apply (G ivs 0 st x s o' eq_refl) in E. rewrite Nat.add_0_r in E. exact E.
Qed.

Lemma p_mass_ok inv names l_freq ivs a cb st rs st' o : p_mass U kone fourier rorder inv names l_freq ivs a cb st = ((Ok rs, st'), o) ->
  stepwise l_freq (length (combinations (length names) cb) * length ivs) 0 o (length (combinations (length names) cb) * length ivs).
Proof.
  unfold p_mass. cbv zeta. intros H. eapply (ploop_steps _ l_freq (length (combinations (length names) cb) * length ivs) (length ivs)) in H; [exact H|].
  intros. eapply p_combination_ok. eassumption.
Qed.
Lemma p_mass_err inv names l_freq ivs a cb st e st' o : p_mass U kone fourier rorder inv names l_freq ivs a cb st = ((Err e, st'), o) ->
  interrupted l_freq (length (combinations (length names) cb) * length ivs) o.
Proof.
  unfold p_mass. cbv zeta. intros H.
  eapply (ploop_partial _ l_freq (length (combinations (length names) cb) * length ivs) (length ivs)) in H as (j & Hj & o1 & o2 & _ & S1 & -> & S2).
  - exists j, o1, o2. auto.
  - intros. eapply p_combination_ok. eassumption.
  - reflexivity.
  - intros. eapply p_combination_err; eassumption.
  - reflexivity.
Qed.

(** *** prefilter values *)
Context {R : Type}.
Variable pvalue : list (kE k) -> list (kB k) -> res R.
Lemma loop_const {S T Q} (g : S -> T -> res Q) (l : list T) (st : S) : loop (fun x s => (g s x, s)) l st = (mapM (g st) l, st).
Proof. induction l as [|x l IH]; [reflexivity|]. cbn [loop mapM]. destruct (g st x); [|reflexivity]. rewrite IH. reflexivity. Qed.
Lemma p_values_combination_fst names l_freq ivs n c rind X :
  fst (p_values_combination U kone fourier pvalue names l_freq ivs n c rind X) = values_combination U kone fourier pvalue names l_freq ivs rind X.
Proof.
  unfold p_values_combination, values_combination. destruct (bind (remote_tags names rind) _) as [[X' remote]|x]; [|reflexivity]. cbv zeta.
  rewrite (ploop_loop _ (fun iv X => (bind (extract_t kone X (fst iv) (snd iv) false) (fun rdata => prefilter_values U fourier pvalue rdata l_freq remote "E" "B"), X))).
  - apply (loop_const (fun X iv => bind (extract_t kone X (fst iv) (snd iv) false) (fun rdata => prefilter_values U fourier pvalue rdata l_freq remote "E" "B"))).
  - reflexivity.
Qed.
Lemma p_values_mass_fst X names l_freq ivs :
  fst (p_values_mass U kone fourier pvalue X names l_freq ivs) = prefilter_values_mass_proc U kone fourier pvalue X names l_freq ivs.
Proof.
  unfold p_values_mass, prefilter_values_mass_proc. destruct (bind _ _); [|reflexivity]. cbv zeta. apply ploop_loop. intros. apply p_values_combination_fst.
Qed.

Definition counts (n i j : nat) : list (line (num (kA k))) := map (fun d => Percent d n) (seq i j).
Lemma counts_app n i j j' : counts n i (j + j') = counts n i j ++ counts n (i + j) j'.
Proof. unfold counts. rewrite seq_app, map_app. reflexivity. Qed.
Lemma p_values_combination_lines names l_freq ivs n c rind X r X' o : p_values_combination U kone fourier pvalue names l_freq ivs n c rind X = ((r, X'), o) ->
  exists j, j <= length ivs /\ o = counts (n * length ivs) (c * length ivs) j /\ forall y, r = Ok y -> j = length ivs.
Proof.
  unfold p_values_combination. destruct (bind (remote_tags names rind) _) as [[X1 remote]|x].
  2: { intros [= <- <- <-]. exists 0. split; [lia|]. split; [reflexivity|discriminate]. }
  cbv zeta. set (body := fun i iv X => (_, [_])).
  assert (G : forall xs i X r X' o, ploop body i xs X = ((r, X'), o) ->
             exists j, j <= length xs /\ o = counts (n * length ivs) (c * length ivs + i) j /\ forall y, r = Ok y -> j = length xs).
  { clear. induction xs as [|x xs IH]; intros i X r X' o; cbn [ploop].
    - intros [= <- <- <-]. exists 0. auto.
    - unfold body at 1. destruct (bind (extract_t kone X (fst x) (snd x) false) _) as [v|e].
      + destruct (ploop body (S i) xs X) as [[rs s] o'] eqn:E. apply IH in E as (j & Hj & -> & Hr). intros [= <- <- <-]. exists (S j). cbn [length].
        split; [lia|]. split; [rewrite Nat.add_succ_r; reflexivity|]. intros y Hy. destruct rs as [rs|]; [|discriminate]. rewrite (Hr rs eq_refl). reflexivity.
      + intros [= <- <- <-]. exists 1. cbn [length]. split; [lia|]. split; [reflexivity|discriminate]. }
  intros H. apply G in H. rewrite Nat.add_0_r in H. exact H.
Qed.
Lemma p_values_mass_lines X names l_freq ivs r X' o : p_values_mass U kone fourier pvalue X names l_freq ivs = ((r, X'), o) ->
  let n := length (combinations (length names) true) * length ivs in
  exists j, j <= n /\ o = counts n 0 j /\ forall y, r = Ok y -> j = n.
Proof.
  unfold p_values_mass. destruct (bind _ _) as [u|e].
  2: { intros [= <- <- <-]. cbv zeta. exists 0. split; [lia|]. split; [reflexivity|discriminate]. }
  cbv zeta. set (l := combinations (length names) true). set (m := length ivs).
  assert (G : forall xs c X r X' o, ploop (p_values_combination U kone fourier pvalue names l_freq ivs (length l)) c xs X = ((r, X'), o) ->
             exists j, j <= length xs * m /\ o = counts (length l * m) (c * m) j /\ forall y, r = Ok y -> j = length xs * m).
  { clear. induction xs as [|x xs IH]; intros c X r X' o; cbn [ploop].
    - intros [= <- <- <-]. exists 0. split; [lia|]. split; [reflexivity|]. cbn. auto.
    - destruct (p_values_combination U kone fourier pvalue names l_freq ivs (length l) c x X) as [[v s] b] eqn:E. apply p_values_combination_lines in E as (j & Hj & -> & Hv). fold m in Hj, Hv |- *.
      destruct v as [v|e].
      + destruct (ploop _ (S c) xs s) as [[rs s'] o'] eqn:E'. apply IH in E' as (j' & Hj' & -> & Hr). intros [= <- <- <-]. specialize (Hv v eq_refl). subst j. exists (m + j').
        cbn [length]. split; [cbn; lia|]. split; [rewrite counts_app; cbn [Nat.mul]; rewrite (Nat.add_comm m (c * m)); reflexivity|].
        intros y Hy. destruct rs as [rs|]; [|discriminate]. rewrite (Hr rs eq_refl). reflexivity.
      + intros [= <- <- <-]. exists j. cbn [length]. split; [cbn; lia|]. split; [reflexivity|discriminate]. }
  intros H. apply G in H. exact H.
Qed.
End Mass.
End Data.
End Printing.
