(** What [load_ats] raises. *)
From Coq Require Import QArith Qcanon.
From Verif Require Import Base BaseLemmas Arith SyncModel ProxyModel SpecProxy AtsModel SpecAts AtsProofs ProxyProofs.
Open Scope nat_scope.

Section Raises.
Context {A : Arith} {V K F : Type}.
Variables (kone : K) (rate_of : Z -> num A) (scale : Z -> Z -> V) (fs : F -> option bytes).

Lemma sync_new_raises (data : list (list V)) (rate start : num A) cal e :
  sync_new kone data rate start cal = Err e -> e = AssertionError.
Proof.
  unfold sync_new. intros H. destruct (length data =? _); simpl in H; [|congruence].
  destruct (dedup _ _) as [|? [|? ?]]; congruence.
Qed.

Lemma read_channels_raises fns cs e : Forall2 (channel fs) fns cs ->
  mapM (read_ats_sample rate_of scale fs) fns = Err e -> e = AssertionError.
Proof.
  induction 1 as [|f c fns cs H1 H2 IH]; intros H; [discriminate|]. rewrite mapM_cons, (read_channel rate_of scale fs f c H1) in H.
  destruct (0 <? _)%Z; cbn [bind] in H; [|congruence]. destruct (mapM _ fns); cbn [bind] in H; [discriminate|]. apply IH. congruence.
Qed.

Lemma load_raises fns cs cal e : Forall2 (channel fs) fns cs -> load_ats kone rate_of scale fs fns cal = Err e -> e = AssertionError.
Proof.
  intros H. unfold load_ats. destruct (mapM _ fns) eqn:E; cbn [bind].
  - destruct (dedup Z.eqb _) as [|? [|? ?]]; try congruence. destruct (dedup (neqb A) _) as [|? [|? ?]]; try congruence.
    apply sync_new_raises.
  - intros [= <-]. eapply read_channels_raises; eassumption.
Qed.

Lemma load_stops pre cs f post cal e : Forall2 (channel fs) pre cs -> Forall (fun c => c_samples c <> []) cs ->
  (fs f = None /\ e = OtherException \/ exists file, fs f = Some file /\ read_ats_header file = Err e) ->
  load_ats kone rate_of scale fs (pre ++ f :: post) cal = Err e.
Proof.
  intros H Hs He. unfold load_ats.
  assert (E : mapM (read_ats_sample rate_of scale fs) (pre ++ f :: post) = Err e).
  { revert Hs. induction H as [|g c pre cs H1 H2 IH]; intros Hs.
    - rewrite app_nil_l, mapM_cons. unfold read_ats_sample. destruct He as [(E & ->)|(file & E & Eh)]; rewrite E; [reflexivity|].
      cbn [of_option bind]. rewrite Eh. reflexivity.
    - inversion Hs as [|? ? Hc Hr]; subst. rewrite <- app_comm_cons, mapM_cons, (read_channel rate_of scale fs g c H1).
      rewrite (proj2 (Z.ltb_lt _ _)). 2: { destruct (c_samples c); [congruence|simpl; lia]. }
      cbn [bind]. rewrite (IH Hr). reflexivity. }
  rewrite E. reflexivity.
Qed.
End Raises.
