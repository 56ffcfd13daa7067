(** [normpath] keeps the place a path leads to. *)
From Coq Require Import QArith Qcanon.
From Verif Require Import Base BaseLemmas GlobModel SpecInv PathModel SpecPath PathProofs NormProofs.
Open Scope nat_scope.

Lemma slashed_split s : slashed (split_slash s) = s.
Proof.
  induction s as [|c s IH]; [reflexivity|]. cbn [split_slash]. destruct (is_spec c c_slash) as [->|D].
  - pose proof (split_nonempty s). destruct (split_slash s) as [|y r]; [congruence|]. change (slashed ([] :: y :: r)) with (c_slash :: slashed (y :: r)). rewrite IH. reflexivity.
  - pose proof (split_nonempty s). destruct (split_slash s) as [|y r]; [congruence|]. change (slashed ((c :: y) :: r)) with (c :: slashed (y :: r)). rewrite IH. reflexivity.
Qed.

Lemma leading (s : text) : exists m r, s = repeat "/"%char m ++ r /\ (forall r', r <> "/"%char :: r').
Proof.
  induction s as [|c s (m & r & -> & Hr)]; [exists 0, []; split; [reflexivity|discriminate]|].
  destruct (ascii_dec c "/"%char) as [->|D]; [exists (S m), r; auto|]. exists 0, (c :: repeat "/"%char m ++ r). split; [reflexivity|]. intros r' E. congruence.
Qed.
Lemma initial_root m r : (forall r', r <> "/"%char :: r') -> initial_slashes (repeat "/"%char m ++ r) = match m with 0 => 0 | 2 => 2 | _ => 1 end.
Proof.
  intros H. assert (H' : match r with [] => True | c :: _ => is c c_slash = false end).
  { destruct r as [|c r]; [exact I|]. destruct (is_spec c c_slash) as [->|]; [exfalso; eapply H; reflexivity|reflexivity]. }
  destruct m as [|[|[|m]]]; cbn [repeat app]; unfold initial_slashes; change (is "/"%char c_slash) with true; cbv iota.
  - destruct r as [|c r]; [reflexivity|]. rewrite H'. reflexivity.
  - destruct r as [|c r]; [reflexivity|]. rewrite H'. reflexivity.
  - destruct r as [|c r]; [reflexivity|]. rewrite H'. reflexivity.
  - reflexivity.
Qed.
Lemma root_initial s n : root_of s n <-> n = initial_slashes s.
Proof.
  split.
  - intros (m & r & -> & Hr & ->). symmetry. apply initial_root, Hr.
  - intros ->. destruct (leading s) as (m & r & -> & Hr). exists m, r. split; [reflexivity|]. split; [exact Hr|]. apply initial_root, Hr.
Qed.
Lemma leads_iff s n p : leads s n p <-> n = initial_slashes s /\ p = fold_left (follow (0 <? n)) (split_slash s) (0, []).
Proof.
  unfold leads. rewrite root_initial. split.
  - intros (Hn & comps & Nc & Hc & -> & ->). split; [exact Hn|]. rewrite split_slashed; [reflexivity|exact Hc|exact Nc].
  - intros (Hn & ->). split; [exact Hn|]. exists (split_slash s). split; [apply split_nonempty|]. split; [apply split_no_slash|]. split; [symmetry; apply slashed_split|reflexivity].
Qed.

Lemma follow_skip rooted p c : c = [] \/ c = ["."%char] -> follow rooted p c = p.
Proof. unfold follow. intros [->| ->]; repeat destruct list_eq_dec; congruence. Qed.
Lemma follow_name rooted p c : good c -> c <> up -> follow rooted p c = (fst p, c :: snd p).
Proof. unfold follow. intros (H1 & H2 & _) H3. repeat destruct list_eq_dec; congruence. Qed.
Lemma follow_up rooted p : follow rooted p up = match snd p with _ :: l => (fst p, l) | [] => (if rooted then fst p else S (fst p), []) end.
Proof. reflexivity. Qed.

Lemma norm_comps_place rooted l : forall acc, (forall c, In c acc -> good c) -> (forall x, In x l -> ~ In c_slash x) ->
  fold_left (follow rooted) (norm_comps rooted acc l) (0, []) = fold_left (follow rooted) l (fold_left (follow rooted) (rev acc) (0, [])).
Proof.
  induction l as [|c l IH]; intros acc Ga Hl; [reflexivity|]. cbn [norm_comps fold_left].
  assert (Hl' : forall x, In x l -> ~ In c_slash x) by (intros x Hx; apply Hl; right; exact Hx).
  destruct (teqb_spec c []) as [->|D1]; [cbn [orb]; rewrite follow_skip by auto; apply IH; assumption|].
  destruct (teqb_spec c (txt ".")) as [->|D2]; [cbn [orb]; rewrite follow_skip by auto; apply IH; assumption|]. cbn [orb].
  assert (Gc : good c) by (split; [exact D1|]; split; [exact D2|apply Hl; left; reflexivity]).
  assert (Push : fold_left (follow rooted) (norm_comps rooted (c :: acc) l) (0, []) =
    fold_left (follow rooted) l (follow rooted (fold_left (follow rooted) (rev acc) (0, [])) c)).
  { rewrite IH; [|intros x [<-|Hx]; [exact Gc|apply Ga, Hx]|exact Hl']. simpl. rewrite fold_left_app. reflexivity. }
  destruct (teqb_spec c (txt "..")) as [->|D3]; cbn [negb orb]; [|exact Push].
  destruct (negb rooted && match acc with [] => true | _ => false end) eqn:E1; cbn [orb]; [exact Push|].
  destruct acc as [|a acc].
  - cbn [tl]. rewrite IH by assumption. change (txt "..") with up. rewrite follow_up. simpl. destruct rooted; [reflexivity|discriminate].
  - destruct (teqb_spec a (txt "..")) as [->|D4]; [exact Push|]. cbn [tl].
    rewrite IH; [|intros x Hx; apply Ga; right; exact Hx|exact Hl']. f_equal. simpl. rewrite fold_left_app. simpl.
    rewrite (follow_name _ _ a); [|apply Ga; left; reflexivity|exact D4]. change (txt "..") with up. rewrite follow_up. simpl. apply surjective_pairing.
Qed.

Lemma norm_comps_good rooted l : forall acc, (forall c, In c acc -> good c) -> (forall x, In x l -> ~ In c_slash x) -> forall c, In c (norm_comps rooted acc l) -> good c.
Proof.
  induction l as [|c l IH]; intros acc Ga Hl; [intros x Hx; apply Ga, in_rev, Hx|]. cbn [norm_comps].
  assert (Hl' : forall x, In x l -> ~ In c_slash x) by (intros x Hx; apply Hl; right; exact Hx).
  destruct (teqb_spec c []) as [->|D1]; [apply IH; assumption|]. destruct (teqb_spec c (txt ".")) as [->|D2]; [apply IH; assumption|]. cbn [orb].
  assert (Gc : good c) by (split; [exact D1|]; split; [exact D2|apply Hl; left; reflexivity]).
  destruct (_ || _ || _); apply IH; try exact Hl'.
  - intros x [<-|Hx]; [exact Gc|apply Ga, Hx].
  - intros x Hx. apply Ga. destruct acc; [destruct Hx|right; exact Hx].
Qed.

Lemma follow_empty rooted n l p : fold_left (follow rooted) (repeat [] n ++ l) p = fold_left (follow rooted) l p.
Proof. induction n as [|n IH]; [reflexivity|]. simpl. rewrite follow_skip by auto. exact IH. Qed.

Theorem normpath_place s n p : leads (normpath s) n p <-> leads s n p.
Proof.
  rewrite !leads_iff.
  set (k := initial_slashes s). set (comps := norm_comps (negb (k =? 0)) [] (split_slash s)).
  assert (Gs : forall c, In c comps -> good c) by (apply norm_comps_good; [intros c []|apply split_no_slash]).
  assert (Hp : fold_left (follow (0 <? k)) comps (0, []) = fold_left (follow (0 <? k)) (split_slash s) (0, [])).
  { unfold comps. replace (0 <? k) with (negb (k =? 0)) by (destruct k; reflexivity). rewrite norm_comps_place; [reflexivity|intros c []|apply split_no_slash]. }
  assert (Hk : k <= 2) by apply initial_le.
  assert (E : initial_slashes (normpath s) = k /\ fold_left (follow (0 <? k)) (split_slash (normpath s)) (0, []) = fold_left (follow (0 <? k)) comps (0, [])).
  { unfold normpath. cbv zeta. fold k. fold comps. rewrite join_slashed.
    assert (Nc : forall r', slashed comps <> "/"%char :: r').
    { intros r' Er. destruct comps as [|[|c x] l]; [discriminate| |]; [destruct (Gs []) as (G & _); [left; reflexivity|congruence]|].
      injection Er as -> _. destruct (Gs ("/"%char :: x)) as (_ & _ & G); [left; reflexivity|]. apply G. left. reflexivity. }
    assert (Ir : initial_slashes (repeat "/"%char k ++ slashed comps) = k).
    { rewrite (initial_root k _ Nc). clearbody comps. clearbody k. destruct k as [|[|[|k']]]; try reflexivity. lia. }
    assert (Es : split_slash (repeat c_slash k ++ slashed comps) = repeat [] k ++ split_slash (slashed comps)) by (clearbody k comps; clear; induction k as [|k' IH]; [reflexivity|]; simpl; rewrite IH; reflexivity).
    destruct (repeat c_slash k ++ slashed comps) as [|c0 r0] eqn:Er.
    - apply app_eq_nil in Er as [Er1 Er2]. destruct k; [|discriminate]. destruct comps as [|x l]; [split; reflexivity|].
      exfalso. destruct (Gs x) as (G & _); [left; reflexivity|]. apply app_eq_nil in Er2 as [-> _]. congruence.
    - split; [rewrite <- Er; exact Ir|]. rewrite Es, follow_empty. destruct comps as [|x l]; [simpl; rewrite follow_skip by auto; reflexivity|].
      rewrite split_slashed; [reflexivity|intros c Hc; apply (Gs c Hc)|discriminate]. }
  destruct E as [E1 E2]. rewrite E1. split; intros [-> ->]; (split; [reflexivity|]).
  - rewrite E2. exact Hp.
  - rewrite E2. symmetry. exact Hp.
Qed.
Theorem leads_one s : exists n p, leads s n p /\ forall n' p', leads s n' p' -> n' = n /\ p' = p.
Proof.
  eexists. eexists. split; [apply leads_iff; split; reflexivity|]. intros n' p' H. apply leads_iff in H as [-> ->]. auto.
Qed.
