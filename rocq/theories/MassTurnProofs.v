(** The order of the runs over combinations of remotes (C62). *)
From Verif Require Import Base BaseLemmas Arith TagsModel SyncModel SetModel GlobModel InvModel FourierModel MestModel UtilsModel MassModel MassProofs SpecMass.

Section Turn.
Context {St T R : Type}.
Lemma loop_turn (f : T -> St -> res R * St) l : forall st r st', loop f l st = (r, st') <-> in_turn (fun x s r s' => f x s = (r, s')) l st r st'.
Proof.
  induction l as [|x l IH]; intros st r st'.
  - simpl. split; [intros [= <- <-]; constructor|inversion 1; subst; reflexivity].
  - cbn [loop]. destruct (f x st) as [[y|e] s1] eqn:Ef.
    + destruct (loop f l s1) as [rs s2] eqn:El. split.
      * intros [= <- <-]. apply IH in El. destruct rs as [rs|e]; simpl; [eapply it_ok|eapply it_later]; eassumption.
      * inversion 1; subst; try congruence.
        { assert (y = r0 /\ s1 = s0) as [-> ->] by (split; congruence). match goal with h : in_turn _ l _ _ _ |- _ => apply IH in h; rewrite El in h; injection h as -> -> end. reflexivity. }
        { assert (y = r0 /\ s1 = s0) as [-> ->] by (split; congruence). match goal with h : in_turn _ l _ _ _ |- _ => apply IH in h; rewrite El in h; injection h as -> -> end. reflexivity. }
    + split; [intros [= <- <-]; apply it_fails; exact Ef|]. inversion 1; subst; try congruence.
Qed.
Lemma turn_map {T'} (g : T' -> T) (P : T -> St -> res R -> St -> Prop) (Q : T' -> St -> res R -> St -> Prop) :
  (forall x s r s', P (g x) s r s' <-> Q x s r s') -> forall l s r s', in_turn P (map g l) s r s' <-> in_turn Q l s r s'.
Proof.
  intros H. induction l as [|x l IH]; intros s r s'; split; cbn [map]; inversion 1; subst;
  solve [apply it_end|apply it_fails, H; assumption|eapply it_ok; [apply H; eassumption|apply IH; assumption]|eapply it_later; [apply H; eassumption|apply IH; assumption]].
Qed.
End Turn.

Lemma testbit_low n i m : i < 2 ^ n -> m < n -> Nat.testbit (2 ^ n + i) m = Nat.testbit i m.
Proof.
  intros Hi Hm. rewrite !Nat.testbit_eqb. f_equal. replace n with (S (n - S m) + m) at 1 by lia. rewrite Nat.pow_add_r, Nat.add_comm.
  rewrite Nat.div_add by (apply Nat.pow_nonzero; lia). rewrite Nat.pow_succ_r', (Nat.mul_comm 2), Nat.mod_add by lia. reflexivity.
Qed.
Lemma testbit_top n i : i < 2 ^ n -> Nat.testbit (2 ^ n + i) n = true.
Proof.
  intros Hi. rewrite Nat.testbit_eqb. replace (2 ^ n + i) with (i + 1 * 2 ^ n) by lia. rewrite Nat.div_add by (apply Nat.pow_nonzero; lia).
  rewrite Nat.div_small by exact Hi. reflexivity.
Qed.
Lemma testbit_none n i : i < 2 ^ n -> Nat.testbit i n = false.
Proof. intros Hi. rewrite Nat.testbit_eqb, Nat.div_small by exact Hi. reflexivity. Qed.

Lemma product_counted n : forall a, product (pairs_from a n) =
  map (fun i => map (fun e => if digits n i e then Some (a + e) else None) (seq 0 n)) (seq 0 (2 ^ n)).
Proof.
  induction n as [|n IH]; intros a; [reflexivity|].
  cbn [pairs_from seq map product flat_map]. fold (pairs_from (S a) n). rewrite app_nil_r, !(IH (S a)), !map_map.
  replace (2 ^ S n) with (2 ^ n + 2 ^ n) by (simpl; lia). rewrite seq_app, map_app. cbn [plus]. f_equal.
  - apply map_ext_in. intros i Hi. apply in_seq in Hi. f_equal.
    + unfold digits. replace (S n - 1 - 0) with n by lia. rewrite testbit_none by lia. reflexivity.
    + rewrite <- seq_shift, map_map. apply map_ext_in. intros e He. unfold digits. replace (S n - 1 - S e) with (n - 1 - e) by lia.
      destruct (Nat.testbit i (n - 1 - e)); [f_equal; lia|reflexivity].
  - replace (seq (2 ^ n) (2 ^ n)) with (map (fun i => 2 ^ n + i) (seq 0 (2 ^ n))).
    2: { clear. generalize (2 ^ n) at 1 3. intros b. generalize (2 ^ n). intros c. replace (seq b c) with (seq (b + 0) c) by (f_equal; lia). generalize 0. induction c as [|c IH]; intros z; [reflexivity|]. cbn [seq map]. f_equal. rewrite IH. f_equal. lia. }
    rewrite map_map. apply map_ext_in. intros i Hi. apply in_seq in Hi. f_equal.
    + unfold digits. replace (S n - 1 - 0) with n by lia. rewrite testbit_top by lia. f_equal. lia.
    + rewrite <- seq_shift, map_map. apply map_ext_in. intros e He. apply in_seq in He. unfold digits. replace (S n - 1 - S e) with (n - 1 - e) by lia.
      rewrite testbit_low by lia. destruct (Nat.testbit i (n - 1 - e)); [f_equal; lia|reflexivity].
Qed.
Lemma combinations_counted n (c : bool) : combinations n c = map (subset n) (if c then map (digits n) (seq 0 (2 ^ n)) else [fun _ => true]).
Proof.
  unfold combinations. destruct c; [|reflexivity]. change (map (fun e => [None; Some e]) (seq 0 n)) with (pairs_from 0 n).
  rewrite product_counted, map_map. apply map_ext. intros i. reflexivity.
Qed.

Lemma remote_picked used names : remote_tags names (subset (length names) used) = Ok (picked used 0 names).
Proof.
  unfold remote_tags, subset.
  assert (G : forall l pre, mapM (fun i => nth_res (pre ++ l) i) (somes (map (fun e => if used e then Some e else None) (seq (length pre) (length l)))) = Ok (picked used (length pre) l)).
  { induction l as [|t l IH]; intros pre; [reflexivity|]. cbn [length seq map somes picked].
    specialize (IH (pre ++ [t])). rewrite <- app_assoc, app_length in IH. cbn [length app] in IH. replace (length pre + 1) with (S (length pre)) in IH by lia.
    destruct (used (length pre)); [|exact IH]. cbn [somes mapM]. unfold nth_res at 1. rewrite nth_error_app2, Nat.sub_diag by lia. cbn [nth_error bind]. rewrite IH. reflexivity. }
  exact (G names []).
Qed.

Section Mass.
Context {k : Kern} (U : UK k) {V K St : Type} (kone : K).
Notation A := (kA k).
Notation E := (kE k).
Notation sigset := (@sigset A V K).
Variable fourier : sigset -> num A -> res (list (list E) * windows).
Variable rorder : list sigset -> list (num A).

Lemma but_remote_iff (a b : @iargs k St) r : but_remote a b r <-> b = with_remote a r.
Proof.
  unfold but_remote, with_remote. split.
  - destruct b. cbn. intros (-> & -> & -> & -> & -> & -> & -> & -> & -> & -> & ->). reflexivity.
  - intros ->. cbn. repeat split.
Qed.

Lemma mass_turn inv names l_freq intervals (a : @iargs k St) (combine : bool) st r st' :
  impedance_mass_proc U kone fourier rorder inv names l_freq intervals a combine st = (r, st') <->
  in_turn (fun used s x s' => exists b,
      but_remote a b (match picked used 0 names with [] => None | _ => Some "Bremote"%string end) /\
      ((exists e, combined_data kone rorder inv (picked used 0 names) = Err e /\ x = Err e /\ s' = s) \/
       (exists data rs, combined_data kone rorder inv (picked used 0 names) = Ok data /\
         in_turn (fun iv s y s' =>
             (exists e, extract_t kone data (fst iv) (snd iv) false = Err e /\ y = Err e /\ s' = s) \/
             (exists X, extract_t kone data (fst iv) (snd iv) false = Ok X /\ impedance U fourier b X l_freq s = (y, s'))) intervals s rs s' /\
         match rs with Ok rs => x = Ok (subset (length names) used, rs) | Err e => x = Err e end)))
    (if combine then map (digits (length names)) (seq 0 (2 ^ length names)) else [fun _ => true]) st r st'.
Proof.
  unfold impedance_mass_proc. rewrite loop_turn, combinations_counted. apply turn_map. intros used s x s'.
  unfold one_combination. rewrite remote_picked. cbn [bind].
  assert (G : forall (b : @iargs k St) (data : sigset) (s : St) (rs : res (list (list (ires U)))) (s' : St), loop (fun iv st => match extract_t kone data (fst iv) (snd iv) false with Err x => (Err x, st) | Ok rdata => impedance U fourier b rdata l_freq st end) intervals s = (rs, s') <->
    in_turn (fun iv s y s' =>
             (exists e, extract_t kone data (fst iv) (snd iv) false = Err e /\ y = Err e /\ s' = s) \/
             (exists X, extract_t kone data (fst iv) (snd iv) false = Ok X /\ impedance U fourier b X l_freq s = (y, s'))) intervals s rs s').
  { intros b data s0 rs s0'. rewrite loop_turn. rewrite <- (map_id intervals) at 1. apply turn_map. intros iv s1 y s1'.
    destruct (extract_t kone data (fst iv) (snd iv) false) as [X|e]; split.
    - intros H. right. eauto.
    - intros [(e & [=] & _)|(X' & [= <-] & H)]. exact H.
    - intros [= <- <-]. left. eauto.
    - intros [(e' & [= <-] & -> & ->)|(X' & [=] & _)]. reflexivity. }
  destruct (combined_data kone rorder inv (picked used 0 names)) as [data|e]; cbn [bind].
  - split.
    + match goal with |- context [loop ?f intervals s] => destruct (loop f intervals s) as [rs s1] eqn:El end. intros H. eexists. split; [apply but_remote_iff; reflexivity|]. right.
      exists data, rs. apply G in El. assert (s1 = s') as -> by congruence. split; [reflexivity|]. split; [exact El|]. destruct rs; cbn [bind] in H; congruence.
    + intros (b & Hb & [(e & [=] & _)|(data' & rs & [= <-] & H & Hx)]). apply but_remote_iff in Hb. subst b. apply G in H. rewrite H. destruct rs; cbn [bind]; congruence.
  - split.
    + intros [= <- <-]. eexists. split; [apply but_remote_iff; reflexivity|]. left. eauto.
    + intros (b & _ & [(e' & [= <-] & -> & ->)|(data & rs & [=] & _)]). reflexivity.
Qed.
End Mass.
