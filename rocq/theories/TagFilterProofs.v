(** Pattern search of tags. *)
From Coq Require Import Sorted Permutation.
From Verif Require Import Base BaseLemmas TagsModel SpecTags SyncModel SetModel SpecSet SetProofs TrackProofs GlobModel SpecInv GlobProofs TagFilterModel TagGroupProofs.

Section TagFilter.
Variables (sorder : list string -> list string) (t : tags).
Hypothesis PERM : forall l, Permutation (sorder l) l.
Hypothesis VALID : tags_valid t.

Lemma has_key k : In k (dkeys (t_dict t)) <-> exists c, reads t k c.
Proof.
  unfold reads, dkeys. rewrite in_map_iff. split.
  - intros ([k' c] & <- & H). exists c. exact H.
  - intros (c & H). exists (k, c). auto.
Qed.

Lemma method_ok m : (forall c, ~ reads t m c) -> method t m = Ok tt.
Proof.
  intros H. unfold method, shadows, dmem. destruct (dget m (t_dict t)) as [c|] eqn:E; [|reflexivity].
  apply dget_In in E. destruct (H c E).
Qed.

Lemma method_err m c : reads t m c -> method t m = Err TypeError.
Proof.
  intros H. unfold method, shadows, dmem. destruct (dget m (t_dict t)) as [c'|] eqn:E; [reflexivity|].
  apply dget_None in E. destruct E. apply has_key. eauto.
Qed.

Lemma in_names pats k : In k (sorder (dedup String.eqb (concat (map (fn_filter (dkeys (t_dict t))) pats)))) <->
  (exists c, reads t k c) /\ exists p, In p pats /\ shell_match p k.
Proof.
  assert (X : forall l, In k (sorder l) <-> In k l).
  { intros l. split; apply Permutation_in; [|apply Permutation_sym]; apply PERM. }
  rewrite X, (In_dedup String.eqb String.eqb_eq), in_concat. split.
  - intros (l & Hl & Hk). apply in_map_iff in Hl as (p & <- & Hp). unfold fn_filter in Hk. apply filter_In in Hk as [H1 H2].
    split; [apply has_key, H1|]. exists p. split; [exact Hp|]. apply fnmatch_spec, H2.
  - intros [H1 (p & Hp & H2)]. exists (fn_filter (dkeys (t_dict t)) p). split; [apply in_map, Hp|].
    apply filter_In. split; [apply has_key, H1|]. apply fnmatch_spec, H2.
Qed.

Theorem filter_spec pats : (forall c, ~ reads t "filter" c) ->
  exists l, t_filter sorder t pats = Ok l /\ NoDup l /\
    forall k, In k l <-> (exists c, reads t k c) /\ exists p, In p pats /\ shell_match p k.
Proof.
  intros H. unfold t_filter. rewrite (method_ok _ H). simpl. eexists. split; [reflexivity|]. split.
  - eapply Permutation_NoDup; [apply Permutation_sym, PERM|]. apply NoDup_dedup, String.eqb_eq.
  - apply in_names.
Qed.

Lemma sorted_strict l : StronglySorted le l -> NoDup l -> StronglySorted lt l.
Proof.
  induction 1 as [|x l S IH F]; intros N; [constructor|]. inversion N as [|? ? N1 N2]; subst. constructor; [auto|].
  rewrite Forall_forall in *. intros y Hy. specialize (F y Hy). assert (x <> y) by (intros ->; auto). lia.
Qed.

Lemma sort_nat_perm l : Permutation (sort_nat l) l.
Proof. unfold sort_nat. apply Permutation_sym, sort_perm. Qed.

Theorem filter_get_spec pats : (forall c, ~ reads t "filter" c) -> (forall c, ~ reads t "get" c) ->
  exists l, t_filter_get sorder t pats = Ok l /\ StronglySorted lt l /\
    forall c, In c l <-> exists k cs p, reads t k cs /\ In c cs /\ In p pats /\ shell_match p k.
Proof.
  intros H1 H2. destruct (filter_spec pats H1) as (names & E & ND & IN). unfold t_filter_get. rewrite E. cbn [bind].
  set (f := fun k => _ <- method t "get" ;; t_get t k).
  assert (Hf : forall k c, reads t k c -> f k = Ok c).
  { intros k c R. unfold f. rewrite (method_ok _ H2). exact (proj2 (reads_get t k c VALID) R). }
  clearbody f.
  assert (M : exists ls, mapM f names = Ok ls /\ Forall2 (reads t) names ls).
  { assert (K : forall k, In k names -> exists c, reads t k c) by (intros k Hk; apply IN, Hk). clear E ND IN.
    induction names as [|k names IH]; [exists []; split; [reflexivity|constructor]|].
    destruct (IH (fun k' Hk' => K k' (or_intror Hk'))) as (ls & E & F). destruct (K k (or_introl eq_refl)) as (c & Hc).
    exists (c :: ls). split; [|constructor; assumption]. simpl. rewrite (Hf k c Hc). simpl. rewrite E. reflexivity. }
  destruct M as (ls & -> & F). cbn [bind]. eexists. split; [reflexivity|]. split.
  - apply sorted_strict; [apply sort_nat_sorted|]. eapply Permutation_NoDup; [apply Permutation_sym, sort_nat_perm|].
    apply NoDup_dedup, Nat.eqb_eq.
  - intros c. assert (X : In c (sort_nat (dedup Nat.eqb (concat ls))) <-> In c (concat ls)).
    { rewrite <- (In_dedup Nat.eqb Nat.eqb_eq c (concat ls)). split; apply Permutation_in; [|apply Permutation_sym]; apply sort_nat_perm. }
    rewrite X, in_concat. clear X E ND. split.
    + intros (cs & Hcs & Hc). assert (exists k, In k names /\ reads t k cs) as (k & Hk & R).
      { clear IN. induction F as [|k l names ls R F IH]; [destruct Hcs|]. destruct Hcs as [<-|Hcs]; [exists k; split; [left|]; auto|].
        destruct (IH Hcs) as (k' & ? & ?). exists k'. split; [right|]; auto. }
      apply IN in Hk as [_ (p & Hp & Hm)]. exists k, cs, p. auto.
    + intros (k & cs & p & R & Hc & Hp & Hm). assert (Hk : In k names) by (apply IN; split; eauto).
      exists cs. split; [|exact Hc]. clear IN. induction F as [|k' l names ls R' F IH]; [destruct Hk|].
      destruct Hk as [<-|Hk]; [|right; auto]. left.
      apply (reads_get t _ _ VALID) in R. apply (reads_get t _ _ VALID) in R'. congruence.
Qed.

Theorem filter_shadowed pats c : reads t "filter" c ->
  t_filter sorder t pats = Err TypeError /\ t_filter_get sorder t pats = Err TypeError.
Proof. intros H. unfold t_filter_get, t_filter. rewrite (method_err _ _ H). auto. Qed.

Theorem get_shadowed pats c : reads t "get" c -> (forall c, ~ reads t "filter" c) ->
  t_filter_get sorder t pats = Err TypeError /\ (exists k p cs, reads t k cs /\ In p pats /\ shell_match p k) \/
  t_filter_get sorder t pats = Ok [] /\ ~ (exists k p cs, reads t k cs /\ In p pats /\ shell_match p k).
Proof.
  intros H H1. destruct (filter_spec pats H1) as (names & E & ND & IN). unfold t_filter_get. rewrite E. cbn [bind].
  destruct names as [|k names]; simpl.
  - right. split; [reflexivity|]. intros (k & p & cs & R & Hp & Hm). assert (F : In k []) by (apply IN; eauto). exact F.
  - left. rewrite (method_err _ _ H). split; [reflexivity|].
    destruct (proj1 (IN k) (or_introl eq_refl)) as ((cs & R) & (p & Hp & Hm)). exists k, p, cs. auto.
Qed.

End TagFilter.

Lemma filter_valid sorder t : (forall l, Permutation (sorder l) l) -> tags_valid t ->
  forall pats, (forall c, ~ reads t "filter" c) ->
  exists l, t_filter sorder t pats = Ok l /\ NoDup l /\
    forall k, In k l <-> (exists c, reads t k c) /\ exists p, In p pats /\ shell_match p k.
Proof. intros P _. exact (filter_spec sorder t P). Qed.
