(** Reading and removing tags, by item and by attribute. *)
From Verif Require Import Base BaseLemmas TagsModel SpecTags TagsProofs.

Lemma read_tag t k : tags_valid t ->
  (forall l, reads t k l -> t_get t k = Ok l /\ t_getattr t k = Ok l) /\
  ((forall l, ~ reads t k l) -> t_get t k = Err KeyError /\ t_getattr t k = Err AttributeError).
Proof.
  intros Hv. unfold t_get, t_getattr. split.
  - intros l H. rewrite (In_dget _ _ _ (tv_unique _ Hv) H). split; reflexivity.
  - intros H. replace (dget k (t_dict t)) with (@None (list nat)); [split; reflexivity|].
    destruct (dget k (t_dict t)) as [l|] eqn:E; [|reflexivity]. exfalso. exact (H l (dget_In _ _ _ E)).
Qed.
Lemma remove_tag t k : tags_valid t ->
  (forall l, reads t k l -> exists t', t_del t k = Ok t' /\ t_delattr t k = Ok t' /\ t_n t' = t_n t /\
     (forall k2 l2, reads t' k2 l2 <-> reads t k2 l2 /\ k2 <> k)) /\
  ((forall l, ~ reads t k l) -> t_del t k = Err KeyError /\ t_delattr t k = Err AttributeError).
Proof.
  intros Hv. pose proof (tv_unique _ Hv) as Nd. change (NoDup (dkeys (t_dict t))) in Nd. unfold t_del, t_delattr. split.
  - intros l H. assert (dmem k (t_dict t) = true) as -> by (apply dmem_In, in_map_iff; exists (k, l); auto).
    eexists. split; [reflexivity|]. split; [reflexivity|]. split; [reflexivity|].
    unfold reads; simpl. intros k2 l2. pose proof (NoDup_ddel k _ Nd) as Nd'. split.
    + intros H1. split; [exact (In_ddel _ _ _ H1)|]. intros ->. apply (In_dget _ _ _ Nd') in H1. rewrite (dget_ddel_same _ _ Nd) in H1. discriminate.
    + intros [H1 H2]. apply dget_In. rewrite (dget_ddel_other _ _ _ H2). exact (In_dget _ _ _ Nd H1).
  - intros H. assert (dmem k (t_dict t) = false) as ->; [|split; reflexivity].
    apply dmem_false. intros Hi. apply dget_Some_key in Hi as [l E]. exact (H l (dget_In _ _ _ E)).
Qed.
