(** Normal paths, and patterns with delimited fields. *)
From Coq Require Import QArith Qcanon.
From Verif Require Import Base BaseLemmas GlobModel SpecInv PathModel SpecPath PathProofs.
Open Scope nat_scope.

Lemma split_nonempty l : split_slash l <> [].
Proof. induction l as [|c l IH]; simpl; [discriminate|]. destruct (is c c_slash); [discriminate|]. destruct (split_slash l); [congruence|discriminate]. Qed.

Lemma split_no_slash l : forall x, In x (split_slash l) -> ~ In c_slash x.
Proof.
  induction l as [|c l IH]; simpl; intros x.
  - intros [<-|[]] [].
  - destruct (is_spec c c_slash) as [->|D].
    + intros [<-|H]; [intros []|apply IH, H].
    + destruct (split_slash l) as [|y r]; [intros [<-|[]] [H|[]]; congruence|]. intros [<-|H]; [|apply IH; right; exact H].
      intros [H|H]; [congruence|]. revert H. apply IH. left. reflexivity.
Qed.

Lemma join_slashed l : join_slash l = slashed l.
Proof.
  destruct l as [|x l]; [reflexivity|]. revert x. induction l as [|y l IH]; intros x; [simpl; rewrite app_nil_r; reflexivity|].
  change (join_slash (x :: y :: l)) with (x ++ c_slash :: join_slash (y :: l)). rewrite IH. reflexivity.
Qed.

Lemma split_app x r : ~ In c_slash x -> split_slash (x ++ r) = match split_slash r with y :: l => (x ++ y) :: l | [] => [x] end.
Proof.
  induction x as [|c x IH]; intros H; simpl.
  - pose proof (split_nonempty r). destruct (split_slash r); [congruence|reflexivity].
  - destruct (is_spec c c_slash) as [->|D]; [exfalso; apply H; left; reflexivity|]. rewrite IH by (intros G; apply H; right; exact G).
    pose proof (split_nonempty r). destruct (split_slash r) as [|y l]; [congruence|reflexivity].
Qed.

Lemma split_slashed l : (forall x, In x l -> ~ In c_slash x) -> l <> [] -> split_slash (slashed l) = l.
Proof.
  destruct l as [|x l]; [congruence|]. intros H _. revert x H. induction l as [|y l IH]; intros x H.
  - simpl. rewrite split_app by (apply H; left; reflexivity). simpl. rewrite app_nil_r. reflexivity.
  - change (slashed (x :: y :: l)) with (x ++ c_slash :: slashed (y :: l)). rewrite split_app by (apply H; left; reflexivity).
    cbn [split_slash]. change (is c_slash c_slash) with true. cbv iota. rewrite IH by (intros z Hz; apply H; right; exact Hz). rewrite app_nil_r. reflexivity.
Qed.

Definition good (c : text) : Prop := c <> [] /\ c <> ["."%char] /\ ~ In "/"%char c.
Definition tidy (rooted : bool) (l : list text) : Prop :=
  (forall c, In c l -> good c) /\ exists k m, l = repeat up k ++ m /\ ~ In up m /\ (rooted = true -> k = 0).

Lemma repeat_snoc {X} (x : X) k : repeat x k ++ [x] = repeat x (S k).
Proof. induction k as [|k IH]; simpl; [reflexivity|]. rewrite IH. reflexivity. Qed.

Lemma norm_comps_tidy rooted l : forall acc, (forall x, In x l -> ~ In c_slash x) -> tidy rooted (rev acc) -> tidy rooted (norm_comps rooted acc l).
Proof.
  induction l as [|c l IH]; intros acc Hl Ha; [exact Ha|]. cbn [norm_comps].
  assert (Hl' : forall x, In x l -> ~ In c_slash x) by (intros x Hx; apply Hl; right; exact Hx).
  destruct (teqb_spec c []) as [->|D1]; [apply IH; assumption|]. destruct (teqb_spec c (txt ".")) as [->|D2]; [apply IH; assumption|]. cbn [orb].
  assert (Gc : good c) by (split; [exact D1|]; split; [exact D2|apply Hl; left; reflexivity]).
  destruct Ha as [Ga (k & m & E & Hm & Hk)].
  assert (Push : (c <> up \/ m = [] /\ rooted = false) -> tidy rooted (norm_comps rooted (c :: acc) l)).
  { intros Hc. apply IH; [exact Hl'|]. simpl. split; [intros x Hx; apply in_app_or in Hx as [Hx|[<-|[]]]; [apply Ga, Hx|exact Gc]|].
    destruct (list_eq_dec ascii_dec c up) as [->|D].
    - destruct Hc as [Hc|[-> Hr]]; [congruence|]. exists (S k), []. rewrite E, app_nil_r, app_nil_r, repeat_snoc. split; [reflexivity|]. split; [intros []|congruence].
    - exists k, (m ++ [c]). rewrite E, app_assoc. split; [reflexivity|]. split; [|exact Hk]. intros G. apply in_app_or in G as [G|[G|[]]]; contradiction. }
  assert (Hd : forall a0 acc', acc = a0 :: acc' -> a0 = up -> m = []).
  { intros a0 acc' -> ->. simpl in E. destruct m as [|x m] using rev_ind; [reflexivity|]. rewrite app_assoc in E. apply app_inj_tail in E as [_ <-]. exfalso. apply Hm, in_or_app. right. left. reflexivity. }
  destruct (teqb_spec c (txt "..")) as [->|D3]; cbn [negb orb]; [|apply Push; left; exact D3].
  destruct (negb rooted && match acc with [] => true | _ => false end) eqn:E1; cbn [orb].
  - apply andb_true_iff in E1 as [E1 E2]. destruct acc; [|discriminate]. apply Push. right. split; [|destruct rooted; [discriminate|reflexivity]].
    simpl in E. symmetry in E. apply app_eq_nil in E as [_ ->]. reflexivity.
  - destruct acc as [|a acc].
    + cbn [tl]. apply IH; [exact Hl'|]. split; [intros x []|]. exists 0, []. split; [reflexivity|]. split; [intros []|reflexivity].
    + destruct (teqb_spec a (txt "..")) as [->|D4].
      * apply Push. right. split; [eapply Hd; reflexivity|]. destruct rooted; [|reflexivity]. exfalso. rewrite (Hk eq_refl), (Hd _ _ eq_refl eq_refl) in E. simpl in E.
        destruct (rev acc); discriminate.
      * cbn [tl]. apply IH; [exact Hl'|]. simpl in Ga, E. split; [intros x Hx; apply Ga, in_or_app; left; exact Hx|].
        destruct m as [|x m] using rev_ind.
        -- exfalso. rewrite app_nil_r in E. destruct k as [|k]; [destruct (rev acc); discriminate|]. rewrite <- repeat_snoc in E. apply app_inj_tail in E as [_ ->]. apply D4. reflexivity.
        -- rewrite app_assoc in E. apply app_inj_tail in E as [E _]. exists k, m. split; [exact E|]. split; [intros G; apply Hm, in_or_app; left; exact G|exact Hk].
Qed.

Lemma initial_le l : initial_slashes l <= 2.
Proof. unfold initial_slashes. repeat match goal with |- context [match ?x with _ => _ end] => destruct x end; lia. Qed.

Lemma normpath_normal s : normal_path (normpath s).
Proof.
  unfold normpath. cbv zeta. set (n := initial_slashes s).
  pose proof (norm_comps_tidy (negb (n =? 0)) (split_slash s) [] (split_no_slash s)) as T.
  destruct T as [G (k & m & E & Hm & Hk)]; [split; [intros x []|exists 0, []; split; [reflexivity|]; split; [intros []|reflexivity]]|].
  set (comps := norm_comps _ [] _) in *. rewrite join_slashed.
  destruct (Nat.eq_dec n 0) as [Hn|Hn].
  - destruct comps as [|x comps'] eqn:Ec; [rewrite Hn; left; reflexivity|]. right. exists 0, comps. rewrite Hn. cbn [repeat app]. rewrite Ec.
    split; [lia|]. split; [|split; [exact G|split; [|lia]]].
    + assert (Hx : x <> []) by (apply (G x); left; reflexivity). destruct x; [congruence|reflexivity].
    + intros _. split; [discriminate|]. exists k, m. auto.
  - right. exists n, comps. split; [apply initial_le|]. split; [destruct n; [congruence|reflexivity]|]. split; [exact G|]. split; [congruence|].
    intros _. assert (k = 0) as -> by (apply Hk; destruct n; [congruence|reflexivity]). rewrite E. exact Hm.
Qed.

Lemma norm_comps_keep rooted m : forall acc, (forall c, In c m -> good c) -> ~ In up m -> norm_comps rooted acc m = rev acc ++ m.
Proof.
  induction m as [|c m IH]; intros acc G Hm; [simpl; rewrite app_nil_r; reflexivity|]. cbn [norm_comps].
  destruct (G c (or_introl eq_refl)) as (G1 & G2 & _). destruct (teqb_spec c []); [congruence|]. destruct (teqb_spec c (txt ".")); [exfalso; apply G2; assumption|].
  destruct (teqb_spec c (txt "..")) as [->|]; [exfalso; apply Hm; left; reflexivity|]. cbn [orb negb].
  rewrite IH; [simpl; rewrite <- app_assoc; reflexivity|intros x Hx; apply G; right; exact Hx|intros H; apply Hm; right; exact H].
Qed.
Lemma norm_comps_up k m : forall j, norm_comps false (repeat up j) (repeat up k ++ m) = norm_comps false (repeat up (k + j)) m.
Proof.
  induction k as [|k IH]; intros j; [reflexivity|]. cbn [repeat app norm_comps]. change (teqb up []) with false. change (teqb up (txt ".")) with false. change (teqb up (txt "..")) with true.
  cbn [orb negb andb].
  assert (E : (match repeat up j with [] => true | _ => false end || match repeat up j with a :: _ => teqb a (txt "..") | [] => false end) = true) by (destruct j; reflexivity).
  rewrite E. change (up :: repeat up j) with (repeat up (S j)). rewrite IH. f_equal. f_equal. lia.
Qed.
Lemma norm_comps_empty rooted n l : norm_comps rooted [] (repeat [] n ++ l) = norm_comps rooted [] l.
Proof. induction n as [|n IH]; [reflexivity|]. exact IH. Qed.
Lemma rev_repeat {X} (x : X) k : rev (repeat x k) = repeat x k.
Proof. induction k as [|k IH]; [reflexivity|]. simpl. rewrite IH. apply repeat_snoc. Qed.

Lemma normal_fixed s : normal_path s -> normpath s = s.
Proof.
  intros [->|(n & comps & Hn & -> & G & H0 & H1)]; [reflexivity|].
  assert (Hs : match slashed comps with [] => comps = [] | c :: _ => is c c_slash = false end).
  { destruct comps as [|x comps]; [reflexivity|]. destruct (G x (or_introl eq_refl)) as (G1 & _ & G3). destruct x as [|c x]; [congruence|]. simpl.
    destruct (is_spec c c_slash) as [->|]; [|reflexivity]. exfalso. apply G3. left. reflexivity. }
  assert (Hi : initial_slashes (repeat c_slash n ++ slashed comps) = n).
  { destruct n as [|[|[|n]]]; [| | |lia]; cbn [repeat app].
    - destruct (slashed comps) as [|c r]; [reflexivity|]. unfold initial_slashes. rewrite Hs. reflexivity.
    - destruct (slashed comps) as [|c r]; [reflexivity|]. unfold initial_slashes. change (is c_slash c_slash) with true. cbv iota. rewrite Hs. reflexivity.
    - destruct (slashed comps) as [|c r]; [reflexivity|]. unfold initial_slashes. change (is c_slash c_slash) with true. cbv iota. rewrite Hs. reflexivity. }
  assert (Hc : norm_comps (negb (n =? 0)) [] (split_slash (repeat c_slash n ++ slashed comps)) = comps).
  { assert (Es : split_slash (repeat c_slash n ++ slashed comps) = repeat [] n ++ split_slash (slashed comps)) by (clear; induction n as [|n IH]; [reflexivity|]; simpl; rewrite IH; reflexivity).
    rewrite Es, norm_comps_empty. destruct comps as [|x comps']; [reflexivity|]. rewrite split_slashed; [|intros y Hy; apply G, Hy|discriminate].
    destruct n as [|n].
    - destruct (H0 eq_refl) as (_ & k & m & E & Hm). rewrite E in *. change (@nil text) with (repeat up 0). rewrite norm_comps_up, norm_comps_keep; [|intros c Hc; apply G, in_or_app; right; exact Hc|exact Hm].
      rewrite rev_repeat, Nat.add_0_r. reflexivity.
    - apply norm_comps_keep; [exact G|apply H1; lia]. }
  unfold normpath. cbv zeta. change ("/"%char) with c_slash. rewrite Hi, Hc, join_slashed.
  destruct n as [|n]; [|reflexivity]. cbn [repeat app]. destruct (slashed comps) eqn:E; [|reflexivity]. exfalso. apply (proj1 (H0 eq_refl)). exact Hs.
Qed.

(** ** delimited fields *)
Lemma delimited_regular p : delimited p -> regular p.
Proof.
  induction p as [|i p IH]; [reflexivity|]. destruct i as [c| |neg body| | |n]; simpl; try contradiction.
  - intros [H1 H2]. auto.
  - intros (H1 & H2 & H3). auto.
Qed.

Lemma split_words a b r r' : Forall word a -> Forall word b -> a ++ r = b ++ r' ->
  (forall c l, r = c :: l -> ~ word c) -> (forall c l, r' = c :: l -> ~ word c) -> a = b /\ r = r'.
Proof.
  revert b. induction a as [|x a IH]; intros b Fa Fb E Hr Hr'.
  - destruct b as [|y b]; [auto|]. simpl in E. exfalso. inversion Fb; subst. eapply Hr; [reflexivity|assumption].
  - destruct b as [|y b]; [simpl in E; exfalso; inversion Fa; subst; eapply Hr'; [symmetry; reflexivity|assumption]|].
    simpl in E. injection E as -> E. inversion Fa; inversion Fb; subst. destruct (IH b) as [-> ->]; auto.
Qed.

Lemma reads_start p s pieces : match p with [] => True | ILit c :: _ => ~ word c | _ => False end -> reads p s pieces -> forall c l, s = c :: l -> ~ word c.
Proof.
  intros H [F C] c l ->. destruct p as [|[d| |neg body| | |n] p]; try contradiction; inversion F; subst; [discriminate|].
  match goal with G : fits _ _ |- _ => simpl in G; subst end. simpl in C. injection C as <- _. exact H.
Qed.

Lemma delimited_unique p : delimited p -> forall s a b, reads p s a -> reads p s b -> a = b.
Proof.
  induction p as [|i p IH]; intros D s a b Ha Hb.
  - destruct Ha as [Fa _], Hb as [Fb _]. inversion Fa; inversion Fb; reflexivity.
  - apply reads_cons in Ha as (x & r & ps & -> & -> & Hx & Hr). apply reads_cons in Hb as (y & r' & ps' & -> & E & Hy & Hr').
    destruct i as [c| |neg body| | |n]; simpl in D; try contradiction.
    + simpl in Hx, Hy. subst. injection E as ->. f_equal. eapply IH; [apply D|exact Hr|exact Hr'].
    + destruct D as (_ & D1 & D2). destruct Hx as [_ Fx], Hy as [_ Fy].
      destruct (split_words x y r r' Fx Fy E) as [-> ->]; [eapply reads_start; eassumption|eapply reads_start; eassumption|].
      f_equal. eapply IH; [exact D2|exact Hr|exact Hr'].
Qed.
