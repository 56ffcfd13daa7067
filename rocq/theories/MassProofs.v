(** Combinations of remotes (C62, C63, C82). *)
From Verif Require Import Base BaseLemmas Arith TagsModel SpecTags SyncModel SetModel SpecSet SetProofs SelectProofs TrackProofs GlobModel InvModel FourierModel MestModel UtilsModel MassModel.

(** ** Combinations *)
Definition pairs_from (a n : nat) : list (list (option nat)) := map (fun e => [None; Some e]) (seq a n).

Lemma product_pairs a n c : In c (product (pairs_from a n)) <->
  length c = n /\ forall e x, nth_error c e = Some x -> x = None \/ x = Some (a + e).
Proof.
  revert a c. induction n as [|n IH]; intros a c.
  - simpl. split; [intros [<-|[]]; split; [reflexivity|intros [|e] x; discriminate]|]. intros [H _]. destruct c; [auto|discriminate].
  - cbn [pairs_from seq map product flat_map]. rewrite app_nil_r, in_app_iff, !in_map_iff. split.
    + intros [(c' & <- & H)|(c' & <- & H)]; apply IH in H as [H1 H2]; (split; [simpl; congruence|]); intros [|e] x; simpl;
      try (intros [= <-]; auto; right; f_equal; lia); intros Hx; apply H2 in Hx as [->|Hx]; auto; right; rewrite Hx; f_equal; lia.
    + intros [H1 H2]. destruct c as [|x c]; [discriminate|]. injection H1 as H1.
      assert (Hc : In c (product (map (fun e => [None; Some e]) (seq (S a) n)))).
      { apply IH. split; [exact H1|]. intros e y Hy. destruct (H2 (S e) y Hy) as [->| ->]; [auto|right; f_equal; lia]. }
      destruct (H2 0 x eq_refl) as [->| ->]; [left|right]; exists c; (split; [|exact Hc]); [reflexivity|]. rewrite Nat.add_0_r. reflexivity.
Qed.

Lemma product_nodup a n : NoDup (product (pairs_from a n)).
Proof.
  revert a. induction n as [|n IH]; intros a; [simpl; constructor; [intros []|constructor]|].
  cbn [pairs_from seq map product flat_map]. rewrite app_nil_r. specialize (IH (S a)). fold (pairs_from (S a) n).
  assert (N : forall x : option nat, NoDup (map (cons x) (product (pairs_from (S a) n)))).
  { intros x. apply FinFun.Injective_map_NoDup; [|exact IH]. intros u v [= E]. exact E. }
  assert (D : forall x, In x (map (cons None) (product (pairs_from (S a) n))) -> ~ In x (map (cons (Some a)) (product (pairs_from (S a) n)))).
  { intros x H1 H2. apply in_map_iff in H1 as (u & <- & _). apply in_map_iff in H2 as (v & E & _). discriminate. }
  revert D. generalize (N None) (N (Some a)). generalize (map (cons None) (product (pairs_from (S a) n))) (map (cons (Some a)) (product (pairs_from (S a) n))).
  clear. induction l as [|x l IH]; intros m Hl Hm D; simpl; [exact Hm|]. inversion Hl; subst. constructor.
  - rewrite in_app_iff. intros [H|H]; [contradiction|]. apply (D x (or_introl eq_refl) H).
  - apply IH; auto. intros y Hy. apply D. right. exact Hy.
Qed.

Lemma product_first a n : exists l, product (pairs_from a n) = repeat None n :: l.
Proof.
  revert a. induction n as [|n IH]; intros a; [exists []; reflexivity|]. cbn [pairs_from seq map product flat_map]. fold (pairs_from (S a) n).
  destruct (IH (S a)) as (l & ->). simpl. eauto.
Qed.

Lemma product_last a n : exists l, product (pairs_from a n) = l ++ [map Some (seq a n)].
Proof.
  revert a. induction n as [|n IH]; intros a; [exists []; reflexivity|]. cbn [pairs_from seq map product flat_map]. fold (pairs_from (S a) n).
  destruct (IH (S a)) as (l & ->). rewrite app_nil_r, (map_app (cons (Some a))). simpl. rewrite app_assoc. eauto.
Qed.

Lemma product_length a n : length (product (pairs_from a n)) = 2 ^ n.
Proof.
  revert a. induction n as [|n IH]; intros a; [reflexivity|]. cbn [pairs_from seq map product flat_map]. fold (pairs_from (S a) n).
  rewrite app_nil_r, app_length, !map_length, IH. simpl. lia.
Qed.

(** ** Loops *)
Section Loop.
Context {St T R : Type} (f : T -> St -> res R * St).

Lemma loop_ok l : forall st rs st', loop f l st = (Ok rs, st') -> Forall2 (fun x r => exists s s', f x s = (Ok r, s')) l rs.
Proof.
  induction l as [|x l IH]; intros st rs st'; simpl; [intros [= <- _]; constructor|].
  destruct (f x st) as [[r|e] st1] eqn:E; [|discriminate]. destruct (loop f l st1) as [[rs1|e] st2] eqn:El; simpl; [|discriminate].
  intros [= <- _]. constructor; [eauto|]. eapply IH, El.
Qed.

Lemma loop_inv (P : St -> Prop) : (forall x s r s', P s -> f x s = (r, s') -> P s') -> forall l st r st', P st -> loop f l st = (r, st') -> P st'.
Proof.
  intros H. induction l as [|x l IH]; intros st r st' Hp; simpl; [intros [= _ <-]; exact Hp|].
  destruct (f x st) as [[r1|e] st1] eqn:E.
  - destruct (loop f l st1) as [rs1 st2] eqn:El. intros [= _ <-]. eapply IH; [|exact El]. eapply H; eassumption.
  - intros [= _ <-]. eapply H; eassumption.
Qed.

(** the results of a loop, when the state satisfies an invariant *)
Lemma loop_ok_inv (P : St -> Prop) : (forall x s r s', P s -> f x s = (r, s') -> P s') -> forall l st rs st', P st ->
  loop f l st = (Ok rs, st') -> Forall2 (fun x r => exists s s', P s /\ f x s = (Ok r, s')) l rs.
Proof.
  intros H. induction l as [|x l IH]; intros st rs st' Hp; simpl; [intros [= <- _]; constructor|].
  destruct (f x st) as [[r|e] st1] eqn:E; [|discriminate]. destruct (loop f l st1) as [[rs1|e] st2] eqn:El; simpl; [|discriminate].
  intros [= <- _]. constructor; [eauto|]. eapply IH; [|exact El]. eapply H; eassumption.
Qed.

Lemma loop_app l x : forall st rs st', loop f (l ++ [x]) st = (Ok rs, st') -> exists rs1 st1 r, loop f l st = (Ok rs1, st1) /\ f x st1 = (Ok r, st') /\ rs = rs1 ++ [r].
Proof.
  induction l as [|y l IH]; intros st rs st'; simpl.
  - destruct (f x st) as [[r|e] st1] eqn:E; [|discriminate]. simpl. intros [= <- <-]. exists [], st, r. auto.
  - destruct (f y st) as [[r|e] st1]; [|discriminate]. destruct (loop f (l ++ [x]) st1) as [[rs1|e] st2] eqn:El; simpl; [|discriminate].
    intros [= <- <-]. apply IH in El as (rs2 & st3 & r' & E1 & E2 & ->). rewrite E1. simpl. exists (r :: rs2), st3, r'. auto.
Qed.
End Loop.

Section Mass.
Context {k : Kern} (U : UK k) {V K St : Type} (kone : K).
Notation A := (kA k).
Notation E := (kE k).
Notation sigset := (@sigset A V K).
Variable fourier : sigset -> num A -> res (list (list E) * windows).
Variable rorder : list sigset -> list (num A).

Lemma somes_map_some {T} (l : list T) : somes (map Some l) = l.
Proof. induction l as [|x l IH]; simpl; [reflexivity|]. rewrite IH. reflexivity. Qed.

Lemma mass_spec inv names l_freq intervals (a : @iargs k St) comb st res st' :
  impedance_mass_proc U kone fourier rorder inv names l_freq intervals a comb st = (Ok res, st') ->
  map fst res = combinations (length names) comb /\
  forall n rind rs, nth_error res n = Some (rind, rs) -> exists rt data,
    remote_tags names rind = Ok rt /\ combined_data kone rorder inv rt = Ok data /\
    length rs = length intervals /\
    forall m iv r, nth_error intervals m = Some iv -> nth_error rs m = Some r -> exists X s s',
      extract_t kone data (fst iv) (snd iv) false = Ok X /\
      impedance U fourier (with_remote a (match rt with [] => None | _ => Some "Bremote"%string end)) X l_freq s = (Ok r, s').
Proof.
  unfold impedance_mass_proc. intros H. apply loop_ok in H.
  assert (Q : forall rind st0 x st1, one_combination U kone fourier rorder inv names l_freq intervals a rind st0 = (Ok x, st1) ->
     fst x = rind /\ exists rt data,
    remote_tags names rind = Ok rt /\ combined_data kone rorder inv rt = Ok data /\
    length (snd x) = length intervals /\
    forall m iv r, nth_error intervals m = Some iv -> nth_error (snd x) m = Some r -> exists X s s',
      extract_t kone data (fst iv) (snd iv) false = Ok X /\
      impedance U fourier (with_remote a (match rt with [] => None | _ => Some "Bremote"%string end)) X l_freq s = (Ok r, s')).
  { clear. intros rind st0 x st1. unfold one_combination.
    destruct (bind (remote_tags names rind) _) as [[rt data]|e] eqn:E0; [|discriminate].
    apply bind_ok in E0 as (rt' & E1 & E0). apply bind_ok in E0 as (d' & E2 & [= -> ->]). cbv zeta.
    destruct (loop _ intervals st0) as [[rs|e] st2] eqn:El; simpl; [|discriminate]. intros [= <- _]. simpl. split; [reflexivity|].
    exists rt, data. split; [exact E1|]. split; [exact E2|]. apply loop_ok in El. split; [symmetry; eapply Forall2_len, El|].
    intros m iv r Hiv Hr. destruct (Forall2_nth_error _ _ _ _ _ El Hiv) as (r' & Hr' & s & s' & G). rewrite Hr in Hr'. injection Hr' as <-.
    destruct (extract_t kone data (fst iv) (snd iv) false) as [X|e] eqn:Ex; [|discriminate]. exists X, s, s'. split; [exact Ex|exact G]. }
  split.
  - clear - H Q. induction H as [|x r l l' (s & s' & Hx) H IH]; [reflexivity|]. simpl. apply Q in Hx as [-> _]. rewrite IH. reflexivity.
  - intros n rind rs Hn. destruct (Forall2_nth_error_r _ _ _ _ _ H Hn) as (rind' & _ & s & s' & Hx). apply Q in Hx as [E0 Hx]. simpl in E0. subst rind'. exact Hx.
Qed.

(** ** Values *)
Context {R : Type} (pvalue : list E -> list (kB k) -> res R).

(** same runs, and the same tags but for 'Bremote' *)
Definition alike (X Y : sigset) : Prop :=
  ss_signals Y = ss_signals X /\ (forall t, t <> "Bremote"%string -> dget t (t_dict (ss_tags Y)) = dget t (t_dict (ss_tags X))) /\
  NoDup (dkeys (t_dict (ss_tags Y))).

Lemma t_set_dget t key v t' : t_set t key v = Ok t' -> t_dict t' = dset key (map Z.to_nat (tupleit v)) (t_dict t).
Proof. unfold t_set. intros H. apply bind_ok in H as ([] & _ & H). cbv zeta in H. apply bind_ok in H as ([] & _ & H). apply bind_ok in H as ([] & _ & [= <-]). reflexivity. Qed.

Lemma combination_alike X names l_freq intervals rind Y r Y' : alike X Y ->
  values_combination U kone fourier pvalue names l_freq intervals rind Y = (r, Y') -> alike X Y'.
Proof.
  intros HY. unfold values_combination. destruct (bind (remote_tags names rind) _) as [[Y1 rem]|e] eqn:E0; [|intros [= _ <-]; exact HY].
  intros [= _ <-]. apply bind_ok in E0 as (rt & _ & E0). apply bind_ok in E0 as (rc & _ & E0).
  destruct (concat rc) as [|b bs]; [injection E0 as <- _; exact HY|]. apply bind_ok in E0 as (t & Ht & [= <- _]).
  destruct HY as (H1 & H2 & H3). apply t_set_dget in Ht. split; [exact H1|]. split.
  - intros key Hk. simpl. rewrite Ht, dget_dset_other by exact Hk. apply H2, Hk.
  - simpl. rewrite Ht. apply NoDup_dset, H3.
Qed.

Lemma map_of_nat_to (l : list nat) : map Z.to_nat (map Z.of_nat l) = l.
Proof. rewrite map_map. rewrite <- (map_id l) at 2. apply map_ext. intros; lia. Qed.

Lemma remote_tags_all names : remote_tags names (map Some (seq 0 (length names))) = Ok names.
Proof.
  unfold remote_tags. rewrite somes_map_some. apply mapM_Forall2.
  enough (H : forall l p : list string, Forall2 (fun i x => nth_res (p ++ l) i = Ok x) (seq (length p) (length l)) l) by apply (H names []).
  clear. induction l as [|x l IH]; intros p; simpl; constructor.
  - unfold nth_res. rewrite nth_error_app2, Nat.sub_diag by lia. reflexivity.
  - specialize (IH (p ++ [x])). rewrite <- app_assoc, app_length, Nat.add_1_r in IH. exact IH.
Qed.

Lemma values_leftover X names l_freq intervals vs X' : wf_set X -> names <> [] -> ~ In "Bremote"%string names ->
  prefilter_values_mass_proc U kone fourier pvalue X names l_freq intervals = (Ok vs, X') ->
  ss_signals X' = ss_signals X /\ (forall t, t <> "Bremote"%string -> t_get (ss_tags X') t = t_get (ss_tags X) t) /\
  exists l, mapM (fun t => t_get (ss_tags X) t) names = Ok l /\ t_get (ss_tags X') "Bremote" = Ok (concat l).
Proof.
  intros W Hne Hb. unfold prefilter_values_mass_proc. destruct (bind _ _) as [u|e]; [|discriminate].
  unfold combinations. destruct (product_last 0 (length names)) as (l & El). unfold pairs_from in El. rewrite El. intros H.
  apply loop_app in H as (rs1 & Y & r & H1 & H2 & _).
  assert (HX : alike X X) by (split; [reflexivity|]; split; [reflexivity|]; apply (tv_unique _ (ws_tags _ W))).
  assert (HY : alike X Y) by (eapply loop_inv; [|exact HX|exact H1]; intros x s r0 s'; apply combination_alike).
  pose proof (combination_alike _ _ _ _ _ _ _ _ HY H2) as (S1 & S2 & _). split; [exact S1|]. split.
  { intros t Ht. unfold t_get. rewrite S2 by exact Ht. reflexivity. }
  unfold values_combination in H2. rewrite remote_tags_all in H2. cbn [bind] in H2.
  destruct (bind (mapM _ names) _) as [[Y1 rem]|e] eqn:E0; [|discriminate]. injection H2 as _ <-.
  apply bind_ok in E0 as (rc & Hrc & E0). exists rc. split.
  - erewrite mapM_ext; [exact Hrc|]. intros t Ht. unfold t_get. f_equal. symmetry. apply HY. intros ->. contradiction.
  - destruct (concat rc) as [|c cs] eqn:Ec.
    + exfalso. destruct names as [|nm names]; [congruence|]. simpl in Hrc. apply bind_ok in Hrc as (l0 & Hl0 & Hrc). apply bind_ok in Hrc as (l1 & _ & [= <-]).
      simpl in Ec. apply app_eq_nil in Ec as [-> _]. unfold t_get in Hl0. apply of_option_ok in Hl0.
      destruct HY as (_ & HY & _). rewrite HY in Hl0 by (intros ->; apply Hb; left; reflexivity). apply dget_In in Hl0.
      apply (tv_nonempty _ (ws_tags _ W) nm []); [exact Hl0|reflexivity].
    + apply bind_ok in E0 as (t & Ht & [= <- _]). apply t_set_dget in Ht. simpl. unfold t_get. rewrite Ht, dget_dset_same. cbn [tupleit]. rewrite map_of_nat_to. reflexivity.
Qed.

(** *** every combination has the same values *)
Hypothesis fourier_signals : forall X Y f, ss_signals X = ss_signals Y -> fourier X f = fourier Y f.

Lemma extract_alike X Y u v X' Y' : alike X Y -> NoDup (dkeys (t_dict (ss_tags X))) ->
  extract_t kone X u v false = Ok X' -> extract_t kone Y u v false = Ok Y' ->
  ss_signals X' = ss_signals Y' /\ forall t, t <> "Bremote"%string -> t_get (ss_tags X') t = t_get (ss_tags Y') t.
Proof.
  intros (H1 & H2 & H3) HN. unfold extract_t, extract_in. rewrite H1. intros HX HY. apply bind_ok in HX as (sg & Es & HX). rewrite Es in HY. cbn [bind] in HY.
  cbv zeta in HX, HY. rewrite set_new_syncs in HX, HY. apply set_of_syncs_inv in HX as (_ & _ & SX & _ & TX). apply set_of_syncs_inv in HY as (_ & _ & SY & _ & TY).
  split; [congruence|].
  assert (D : forall t0 l t1, NoDup (dkeys (t_dict t0)) -> set_tags (A := A) (V := V) (K := K) l None (TObj t0) = Ok t1 -> t_dict t1 = t_dict t0).
  { clear. intros t0 l t1 N H. unfold set_tags in H. cbv zeta in H. apply bind_ok in H as ([] & _ & H). apply bind_ok in H as ([] & _ & H).
    apply tags_new_dict in H; [|rewrite dkeys_obj; exact N]. rewrite store_obj in H. exact H. }
  apply D in TX; [|exact HN]. apply D in TY; [|exact H3]. intros t Ht. unfold t_get. rewrite TX, TY. rewrite H2 by exact Ht. reflexivity.
Qed.

Lemma prefilter_values_alike X Y l_freq r1 r2 : ss_signals X = ss_signals Y ->
  t_get (ss_tags X) "E" = t_get (ss_tags Y) "E" -> t_get (ss_tags X) "B" = t_get (ss_tags Y) "B" ->
  prefilter_values U fourier pvalue X l_freq r1 "E" "B" = prefilter_values U fourier pvalue Y l_freq r2 "E" "B".
Proof.
  intros H HE HB. unfold prefilter_values. f_equal. apply mapM_ext. intros f _. rewrite (fourier_signals X Y f H).
  destruct (fourier Y f) as [[coeffs w]|e]; [|reflexivity]. cbn [bind]. cbv zeta. rewrite HE, HB.
  replace (all_times X w) with (all_times Y w); [reflexivity|]. unfold all_times, run_windows. destruct w as [[Nw Lw] sh]. rewrite H. reflexivity.
Qed.

Lemma values_same X names l_freq intervals vs X' : wf_set X ->
  prefilter_values_mass_proc U kone fourier pvalue X names l_freq intervals = (Ok vs, X') ->
  length vs = 2 ^ length names /\ forall v, In v vs ->
    mapM (fun iv => rdata <- extract_t kone X (fst iv) (snd iv) false ;; prefilter_values U fourier pvalue rdata l_freq None "E" "B") intervals = Ok v.
Proof.
  intros W. unfold prefilter_values_mass_proc. destruct (bind _ _) as [u|e]; [|discriminate]. intros H.
  assert (N : NoDup (dkeys (t_dict (ss_tags X)))) by apply (tv_unique _ (ws_tags _ W)).
  assert (HX : alike X X) by (split; [reflexivity|]; split; [reflexivity|exact N]).
  pose proof (loop_ok_inv _ (alike X) (fun x s r s' => combination_alike X names l_freq intervals x s r s') _ _ _ _ HX H) as F.
  split; [rewrite <- (Forall2_len _ _ _ F); unfold combinations; apply (product_length 0)|].
  (* the first combination uses no remote, so its data are the caller's *)
  assert (First : exists v0, mapM (fun iv => rdata <- extract_t kone X (fst iv) (snd iv) false ;; prefilter_values U fourier pvalue rdata l_freq None "E" "B") intervals = Ok v0).
  { unfold combinations in H. destruct (product_first 0 (length names)) as (l & El). unfold pairs_from in El. rewrite El in H. simpl in H.
    unfold values_combination at 1 in H. unfold remote_tags at 1 in H.
    assert (En : forall n, somes (repeat (@None nat) n) = []) by (induction n; simpl; auto). rewrite En in H. cbn [mapM bind concat] in H.
    destruct (mapM _ intervals) as [v0|e] eqn:E0; [eauto|discriminate]. }
  destruct First as (v0 & E0). intros v Hv. rewrite E0. f_equal. apply In_nth_error in Hv as [n Hn].
  destruct (Forall2_nth_error_r _ _ _ _ _ F Hn) as (rind & _ & s & s' & Hs & Hc).
  pose proof (combination_alike _ _ _ _ _ _ _ _ Hs Hc) as Hs'.
  unfold values_combination in Hc. destruct (bind (remote_tags names rind) _) as [[Y rem]|e]; [|discriminate]. injection Hc as Hc ->.
  apply mapM_Forall2 in Hc. apply mapM_Forall2 in E0. clear - Hc E0 Hs' N fourier_signals.
  revert v Hc. induction E0 as [|iv r l l' Hr _ IH]; intros v Hc; inversion Hc as [|? x ? v' Hx Hv]; subst; [reflexivity|]. f_equal; [|apply IH, Hv].
  apply bind_ok in Hr as (X1 & E1 & P1). apply bind_ok in Hx as (X2 & E2 & P2).
  destruct (extract_alike X s' _ _ _ _ Hs' N E1 E2) as [G1 G2].
  rewrite (prefilter_values_alike X1 X2 l_freq None rem G1) in P1 by (apply G2; discriminate). rewrite P1 in P2. injection P2 as ->. reflexivity.
Qed.
End Mass.
