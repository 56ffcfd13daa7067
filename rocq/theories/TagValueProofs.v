(** Proofs about the values returned by the methods of tags (C111). *)
From Verif Require Import Base BaseLemmas TagsModel SpecTags TagsProofs SpecTagOps TagOpsProofs TagValueModel.
Local Open Scope string_scope.

Lemma get_reads t k l : tags_valid t -> reads t k l -> t_get t k = Ok l.
Proof. intros Hv H. unfold t_get. rewrite (In_dget _ _ _ (tv_unique _ Hv) H). reflexivity. Qed.
Lemma get_absent t k : ~ has_tag t k -> t_get t k = Err KeyError.
Proof. intros H. unfold t_get. apply not_has_dmem in H. unfold dmem in H. destruct (dget k (t_dict t)); [discriminate|reflexivity]. Qed.

Lemma value_get t k default : tags_valid t ->
  (~ has_tag t "get" -> forall l, reads t k l -> t_get_default t k default = Ok (VTag l)) /\
  (~ has_tag t "get" -> ~ has_tag t k -> t_get_default t k default = Ok (match default with Some v => VArg v | None => VNone end)) /\
  (has_tag t "get" -> t_get_default t k default = Err TypeError).
Proof.
  intros Hv. unfold t_get_default. split; [|split]; intros H; [rewrite (method_ok _ _ H)|rewrite (method_ok _ _ H)|rewrite (method_err _ _ H)]; cbn [bind].
  - intros l Hl. rewrite (get_reads _ _ _ Hv Hl). reflexivity.
  - intros Hk. rewrite (get_absent _ _ Hk). reflexivity.
  - reflexivity.
Qed.

Lemma value_pop t k default : tags_valid t ->
  (~ has_tag t "pop" -> forall l, reads t k l -> exists t', t_pop t k default = (t', Ok (VTag l)) /\ without t k t' /\ ~ has_tag t' k) /\
  (~ has_tag t "pop" -> ~ has_tag t k -> t_pop t k default = (t, match default with Some v => Ok (VArg v) | None => Err KeyError end)) /\
  (has_tag t "pop" -> t_pop t k default = (t, Err TypeError)).
Proof.
  intros Hv. unfold t_pop. split; [|split]; intros H; [rewrite (method_ok _ _ H)|rewrite (method_ok _ _ H)|rewrite (method_err _ _ H)].
  - intros l Hl. rewrite (get_reads _ _ _ Hv Hl). assert (Hk : dmem k (t_dict t) = true) by (apply has_dmem; exists l; exact Hl).
    unfold t_del. rewrite Hk. eexists. split; [reflexivity|]. split; [split; [reflexivity|apply ddel_split, Hk]|].
    rewrite not_has_dmem. cbn [t_dict]. unfold dmem. rewrite (dget_ddel_same k _ (tv_unique _ Hv)). reflexivity.
  - intros Hk. rewrite (get_absent _ _ Hk). reflexivity.
  - reflexivity.
Qed.

Lemma value_popitem t : tags_valid t ->
  (~ has_tag t "popitem" -> forall k l d, t_dict t = (k, l) :: d -> t_popitem_value t = (mkTags (t_n t) d, Ok (k, l))) /\
  (~ has_tag t "popitem" -> t_dict t = [] -> t_popitem_value t = (t, Err KeyError)) /\
  (has_tag t "popitem" -> t_popitem_value t = (t, Err TypeError)).
Proof.
  intros Hv. unfold t_popitem_value. split; [|split]; intros H; [rewrite (method_ok _ _ H)|rewrite (method_ok _ _ H)|rewrite (method_err _ _ H)].
  - intros k l d Hd. pose proof (get_reads t k l Hv) as G. specialize (G ltac:(unfold reads; rewrite Hd; left; reflexivity)). rewrite Hd, G. unfold t_del, dmem. rewrite Hd. cbn [dget ddel]. rewrite String.eqb_refl. reflexivity.
  - intros ->. reflexivity.
  - reflexivity.
Qed.

Lemma value_setdefault t k v : tags_valid t ->
  (~ has_tag t "setdefault" -> forall l, reads t k l -> t_setdefault t k (Some v) = (t, Ok (VTag l))) /\
  (~ has_tag t "setdefault" -> ~ has_tag t k ->
     t_setdefault t k (Some v) = (fst (t_step t (TSet k v)), match snd (t_step t (TSet k v)) with Ok _ => Ok (VArg v) | Err e => Err e end)) /\
  (has_tag t "setdefault" -> t_setdefault t k (Some v) = (t, Err TypeError)).
Proof.
  intros Hv. unfold t_setdefault. split; [|split]; intros H; [rewrite (method_ok _ _ H)|rewrite (method_ok _ _ H)|rewrite (method_err _ _ H)].
  - intros l Hl. rewrite (get_reads _ _ _ Hv Hl). reflexivity.
  - intros Hk. rewrite (get_absent _ _ Hk). cbn [t_step]. destruct (t_set t k v); reflexivity.
  - reflexivity.
Qed.

Lemma value_setdefault_none t k : tags_valid t -> ~ has_tag t k -> exists e, t_setdefault t k None = (t, Err e).
Proof.
  intros Hv Hk. unfold t_setdefault. destruct (method t "setdefault") as [|e]; [|eauto]. rewrite (get_absent _ _ Hk). destruct (head_alpha k); eauto.
Qed.

(** the same changes as the operations without values *)
Lemma value_states t k v : tags_valid t ->
  (fst (t_pop t k None) = fst (t_step t (TPop k)) /\ (forall e, snd (t_pop t k None) = Err e <-> snd (t_step t (TPop k)) = Err e)) /\
  (fst (t_popitem_value t) = fst (t_step t TPopitem) /\ (forall e, snd (t_popitem_value t) = Err e <-> snd (t_step t TPopitem) = Err e)) /\
  (fst (t_setdefault t k (Some v)) = fst (t_step t (TSetdefault k v)) /\ (forall e, snd (t_setdefault t k (Some v)) = Err e <-> snd (t_step t (TSetdefault k v)) = Err e)).
Proof.
  intros Hv. split; [|split].
  - unfold t_pop. cbn [t_step]. destruct (method t "pop") as [[]|e0]; cbn [bind keep_on_error fst snd]; [|split; [reflexivity|intros; split; intros [= <-]; reflexivity]].
    unfold t_get, t_del, dmem. destruct (dget k (t_dict t)) as [l|]; cbn [of_option keep_on_error fst snd]; (split; [reflexivity|]); [split; discriminate|intros; split; intros [= <-]; reflexivity].
  - unfold t_popitem_value, t_popitem. cbn [t_step]. destruct (method t "popitem") as [[]|e0]; cbn [bind keep_on_error fst snd]; [|split; [reflexivity|intros; split; intros [= <-]; reflexivity]].
    unfold t_popitem, t_get, t_del, dmem. destruct (t_dict t) as [|[k0 l] d] eqn:E; cbn [keep_on_error fst snd]; [split; [reflexivity|intros; split; intros [= <-]; reflexivity]|].
    cbn [dget ddel]. rewrite String.eqb_refl. cbn [of_option fst snd]. split; [reflexivity|split; discriminate].
  - unfold t_setdefault. cbn [t_step]. destruct (method t "setdefault") as [[]|e0]; cbn [bind keep_on_error fst snd]; [|split; [reflexivity|intros; split; intros [= <-]; reflexivity]].
    unfold t_get, dmem. destruct (dget k (t_dict t)) as [l|]; cbn [of_option keep_on_error fst snd]; [split; [reflexivity|split; discriminate]|].
    destruct (t_set t k v); cbn [keep_on_error fst snd]; (split; [reflexivity|]); [split; discriminate|intros; split; intros [= <-]; reflexivity].
Qed.

(** the new value of the tag is the returned one exactly when a tuple was given *)
Lemma value_setdefault_same t k v t' : ~ has_tag t k -> t_setdefault t k (Some v) = (t', Ok (VArg v)) ->
  exists l, t_get t' k = Ok l /\ map Z.of_nat l = entries v.
Proof.
  intros Hk. unfold t_setdefault. destruct (method t "setdefault") as [[]|e0]; [|discriminate]. rewrite (get_absent _ _ Hk).
  destruct (t_set t k v) as [t1|] eqn:E; [|discriminate]. intros [= <-]. unfold t_set in E.
  apply bind_ok in E as ([] & _ & E). cbv zeta in E. apply bind_ok in E as ([] & _ & E). apply bind_ok in E as ([] & Hm & E). injection E as <-.
  exists (map Z.to_nat (tupleit v)). unfold t_get. cbn [t_dict]. rewrite dget_dset_same. split; [reflexivity|].
  apply check_ok in Hm. rewrite forallb_forall in Hm. rewrite map_map.
  assert (G : forall z, In z (tupleit v) -> Z.of_nat (Z.to_nat z) = z).
  { intros z Hz. apply Hm in Hz. unfold idx_mem in Hz. destruct (t_indices t) as [n|l].
    - apply andb_prop in Hz as [Hz _]. apply Z.leb_le in Hz. lia.
    - apply (proj1 (memb_In Z.eqb Z.eqb_eq _ _)) in Hz. apply in_map_iff in Hz as (m & <- & _). lia. }
  replace (entries v) with (tupleit v) by (destruct v; reflexivity). clear -G. induction (tupleit v) as [|z l IH]; [reflexivity|]. cbn [map].
  rewrite G by (left; reflexivity). rewrite IH; [reflexivity|]. intros; apply G; right; assumption.
Qed.
