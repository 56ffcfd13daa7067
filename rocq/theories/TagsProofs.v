(** Proofs about [Tags]. *)
From Verif Require Import Base BaseLemmas TagsModel SpecTags.

Lemma is_alpha_letters : forall c, is_alpha c = true <-> In c letters.
Proof.
  intros c.
  assert (H : is_alpha c = if in_dec ascii_dec c letters then true else false).
  { destruct c as [[|] [|] [|] [|] [|] [|] [|] [|]]; vm_compute; reflexivity. }
  rewrite H. destruct (in_dec ascii_dec c letters); split; intros; congruence || auto.
Qed.

Lemma head_alpha_iff k : head_alpha k = true <-> begins_with_letter k.
Proof.
  unfold begins_with_letter. destruct k as [|c k]; simpl.
  - split; [discriminate|intros (c & k' & E & _); discriminate].
  - rewrite is_alpha_letters. split; [eauto|].
    intros (c' & k' & E & H); injection E as -> _; exact H.
Qed.

Lemma tupleit_entries v : tupleit v = entries v.
Proof. destruct v; reflexivity. Qed.

Lemma length_eqb0 {A} (l : list A) : negb (length l =? 0) = true <-> l <> [].
Proof. destruct l; simpl; split; congruence. Qed.

Lemma idx_mem_set n z : idx_mem z (ISet n) = true <-> (0 <= z < Z.of_nat n)%Z.
Proof. unfold idx_mem; rewrite andb_true_iff, Z.leb_le, Z.ltb_lt; tauto. Qed.

Lemma idx_mem_tuple l z : idx_mem z (ITuple l) = true <-> In z (map Z.of_nat l).
Proof. unfold idx_mem. apply memb_In. intros; apply Z.eqb_eq. Qed.

Definition in_indices (t : tags) (z : Z) : Prop := idx_mem z (t_indices t) = true.

Lemma t_set_ok t k v t' :
  t_set t k v = Ok t' <->
  begins_with_letter k /\ entries v <> [] /\ (forall z, In z (entries v) -> in_indices t z) /\
  t' = mkTags (t_n t) (dset k (map Z.to_nat (entries v)) (t_dict t)).
Proof.
  unfold t_set. rewrite <- head_alpha_iff, tupleit_entries, <- length_eqb0.
  split.
  - intros H. binvs; subst. rewrite forallb_forall in *. repeat split; auto.
  - intros (-> & -> & H & ->); simpl.
    assert (E : forallb (fun x => idx_mem x (t_indices t)) (entries v) = true)
      by (apply forallb_forall; exact H).
    rewrite E; reflexivity.
Qed.

Lemma valid_in_indices t z : tags_valid t -> in_indices t z -> (0 <= z < Z.of_nat (t_n t))%Z.
Proof.
  intros Hv. unfold in_indices, t_indices. destruct (dget "indices" (t_dict t)) as [l|] eqn:E.
  - rewrite idx_mem_tuple, in_map_iff. intros (c & <- & Hc).
    apply dget_In in E. pose proof (tv_range _ Hv _ _ _ E Hc). lia.
  - apply idx_mem_set.
Qed.

Lemma In_dset {B} k v k' v' (d : dict B) :
  In (k', v') (dset k v d) -> (k' = k /\ v' = v) \/ In (k', v') d.
Proof.
  induction d as [|[k0 v0] d IH]; simpl.
  - intros [E|[]]; injection E as <- <-; auto.
  - destruct (String.eqb_spec k k0) as [->|Hk]; simpl; intros [E|H]; auto.
    + injection E as <- <-; auto.
    + destruct (IH H); auto.
Qed.

Lemma valid_set t k v t' : tags_valid t -> t_set t k v = Ok t' -> tags_valid t' /\ t_n t' = t_n t.
Proof.
  intros Hv H. apply t_set_ok in H as (Hk & Hne & Hin & ->). split; [|reflexivity].
  assert (Hr : forall z, In z (entries v) -> (0 <= z < Z.of_nat (t_n t))%Z)
    by (intros; apply valid_in_indices; auto).
  split; unfold reads; simpl.
  - intros k' l H. apply In_dset in H as [[-> ->]|H]; [assumption|]. eapply tv_names; eauto.
  - intros k' l H. apply In_dset in H as [[-> ->]|H]; [|eapply tv_nonempty; eauto].
    destruct (entries v); [congruence|discriminate].
  - intros k' l c H Hc. apply In_dset in H as [[-> ->]|H]; [|eapply tv_range; eauto].
    apply in_map_iff in Hc as (z & <- & Hz). specialize (Hr z Hz). lia.
  - apply NoDup_dset. apply Hv.
Qed.

Lemma valid_sub t d : tags_valid t -> incl d (t_dict t) -> NoDup (dkeys d) -> tags_valid (mkTags (t_n t) d).
Proof.
  intros Hv Hi Hnd; split; unfold reads; simpl; intros.
  - eapply tv_names; [exact Hv|apply Hi; eassumption].
  - eapply tv_nonempty; [exact Hv|apply Hi; eassumption].
  - eapply tv_range; [exact Hv|apply Hi; eassumption|assumption].
  - exact Hnd.
Qed.

Lemma valid_ddel t k : tags_valid t -> tags_valid (mkTags (t_n t) (ddel k (t_dict t))).
Proof.
  intros Hv; apply valid_sub; [exact Hv| |apply NoDup_ddel, Hv]. intros x; apply In_ddel.
Qed.

Lemma valid_clear t : tags_valid t -> tags_valid (mkTags (t_n t) []).
Proof. intros; apply valid_sub; [assumption|intros x []|constructor]. Qed.

Lemma valid_empty n : tags_valid (mkTags n []).
Proof. split; unfold reads; simpl; try contradiction. constructor. Qed.

Lemma valid_update d : forall t, tags_valid t ->
  tags_valid (fst (t_update t d)) /\ t_n (fst (t_update t d)) = t_n t.
Proof.
  induction d as [|[k v] d IH]; intros t Hv; simpl; [auto|].
  destruct (t_set t k v) as [t'|e] eqn:E; simpl; [|auto].
  destruct (valid_set _ _ _ _ Hv E) as [Hv' Hn]. destruct (IH t' Hv') as [A B]. split; [exact A|congruence].
Qed.

Lemma valid_step t o : tags_valid t -> tags_valid (fst (t_step t o)) /\ t_n (fst (t_step t o)) = t_n t.
Proof.
  intros Hv.
  assert (Kset : forall k v, tags_valid (fst (keep_on_error t (t_set t k v))) /\
                             t_n (fst (keep_on_error t (t_set t k v))) = t_n t).
  { intros k v. destruct (t_set t k v) as [t'|e] eqn:E; simpl; [eapply valid_set; eauto|auto]. }
  assert (Kdel : forall k, tags_valid (mkTags (t_n t) (ddel k (t_dict t)))) by (intros; apply valid_ddel; auto).
  destruct o; simpl.
  - apply Kset.
  - unfold t_del. destruct (dmem k (t_dict t)); simpl; auto.
  - unfold t_del. destruct (method t "pop"); simpl; [|auto]. destruct (dmem k (t_dict t)); simpl; auto.
  - unfold t_popitem. destruct (method t "popitem"); simpl; [|auto].
    destruct (t_dict t) as [|x d] eqn:E; simpl; [auto|]. split; [|reflexivity].
    apply valid_sub; [exact Hv| |].
    + rewrite E; intros y Hy; right; exact Hy.
    + pose proof (tv_unique _ Hv) as Hu. rewrite E in Hu. inversion Hu; assumption.
  - destruct (method t "setdefault"); simpl; [|auto].
    destruct (dmem k (t_dict t)); simpl; [auto|apply Kset].
  - unfold t_setattr. destruct (String.eqb k "indices"); simpl; [auto|apply Kset].
  - unfold t_delattr. destruct (dmem k (t_dict t)); simpl; auto.
  - destruct (method t "update"); simpl; [apply valid_update; exact Hv|auto].
  - destruct (_ <- method t "clear" ;; method t "popitem"); simpl; [|auto].
    split; [apply valid_clear; exact Hv|reflexivity].
Qed.

Lemma valid_run os : forall t, tags_valid t -> tags_valid (t_run t os) /\ t_n (t_run t os) = t_n t.
Proof.
  unfold t_run. induction os as [|o os IH]; intros t Hv; simpl; [auto|].
  destruct (valid_step t o Hv) as [A B]. destruct (IH _ A) as [C D]. split; [exact C|congruence].
Qed.

Lemma tags_new_valid n d t : tags_new n d = Ok t -> tags_valid t.
Proof.
  unfold tags_new. intros H. binvs.
  destruct (valid_update d (mkTags (Z.to_nat match n with Some n0 => n0 | None => infer_n d end) []) (valid_empty _)) as [A _].
  destruct (t_update _ d) as [t' [u|e]]; [|discriminate]. injection Hk as <-; exact A.
Qed.

Lemma tags_new_n n d t : tags_new n d = Ok t ->
  t_n t = Z.to_nat (match n with Some n0 => n0 | None => infer_n d end).
Proof.
  unfold tags_new. intros H. binvs.
  destruct (valid_update d (mkTags (Z.to_nat match n with Some n0 => n0 | None => infer_n d end) []) (valid_empty _)) as [_ A].
  destruct (t_update _ d) as [t' [u|e]]; [|discriminate]. injection Hk as <-; exact A.
Qed.

Lemma tags_history n d t os :
  tags_new n d = Ok t -> tags_valid (t_run t os) /\ t_n (t_run t os) = t_n t.
Proof. intros H; apply valid_run; eapply tags_new_valid; eauto. Qed.

(** ** Guarded dictionary *)
Lemma in_indices_noshadow t z : dget "indices" (t_dict t) = None ->
  (in_indices t z <-> (0 <= z < Z.of_nat (t_n t))%Z).
Proof. intros E. unfold in_indices, t_indices; rewrite E. apply idx_mem_set. Qed.

Lemma in_indices_shadow t z l : dget "indices" (t_dict t) = Some l ->
  (in_indices t z <-> In z (map Z.of_nat l)).
Proof. intros E. unfold in_indices, t_indices; rewrite E. apply idx_mem_tuple. Qed.

Lemma reads_dget t k l : tags_valid t -> (reads t k l <-> dget k (t_dict t) = Some l).
Proof. intros Hv. split; [apply In_dget, Hv|apply dget_In]. Qed.

Lemma noshadow_iff t : (forall l, ~ reads t "indices" l) <-> dget "indices" (t_dict t) = None.
Proof.
  rewrite dget_None. split.
  - intros H Hin. apply dget_Some_key in Hin as [v Hv]. apply (H v), dget_In, Hv.
  - intros H l Hr. apply H. apply (in_map fst) in Hr; exact Hr.
Qed.

Lemma set_accepts t k v :
  (forall l, ~ reads t "indices" l) ->
  ((exists t', t_set t k v = Ok t') <-> legal (t_n t) k v).
Proof.
  rewrite noshadow_iff. intros Hi. unfold legal. split.
  - intros [t' H]. apply t_set_ok in H as (A & B & C & _). repeat split; auto;
      apply (in_indices_noshadow t z Hi), C; assumption.
  - intros (A & B & C). eexists. apply t_set_ok. split; [exact A|]. split; [exact B|]. split; [|reflexivity].
    intros z Hz; apply (in_indices_noshadow t z Hi), C, Hz.
Qed.

Lemma set_accepts_shadowed t k v li : tags_valid t ->
  reads t "indices" li ->
  ((exists t', t_set t k v = Ok t') <->
   begins_with_letter k /\ entries v <> [] /\ forall z, In z (entries v) -> In z (map Z.of_nat li)).
Proof.
  intros Hv Hi. apply (reads_dget _ _ _ Hv) in Hi. split.
  - intros [t' H]. apply t_set_ok in H as (A & B & C & _). repeat split; auto.
    intros z Hz. apply (in_indices_shadow t z li Hi), C, Hz.
  - intros (A & B & C). eexists. apply t_set_ok. split; [exact A|]. split; [exact B|]. split; [|reflexivity].
    intros z Hz; apply (in_indices_shadow t z li Hi), C, Hz.
Qed.

Lemma map_to_nat_of t v : tags_valid t -> (forall z, In z (entries v) -> in_indices t z) ->
  map Z.of_nat (map Z.to_nat (entries v)) = entries v.
Proof.
  intros Hv H. rewrite map_map. rewrite <- (map_id (entries v)) at 2. apply map_ext_in.
  intros z Hz. specialize (H z Hz). apply (valid_in_indices _ _ Hv) in H. lia.
Qed.

Lemma set_effect t k v t' : tags_valid t -> t_set t k v = Ok t' ->
  (exists l, map Z.of_nat l = entries v /\ t_get t' k = Ok l /\ t_getattr t' k = Ok l) /\
  (forall k2, k2 <> k -> t_get t' k2 = t_get t k2 /\ t_getattr t' k2 = t_getattr t k2) /\
  t_n t' = t_n t /\
  map fst (t_dict t') = map fst (t_dict t) ++ (if dmem k (t_dict t) then [] else [k]).
Proof.
  intros Hv H. apply t_set_ok in H as (Hk & Hne & Hin & ->). unfold t_get, t_getattr; simpl. repeat split.
  - exists (map Z.to_nat (entries v)). rewrite dget_dset_same. simpl.
    split; [eapply map_to_nat_of; eauto|auto].
  - rewrite dget_dset_other by assumption; reflexivity.
  - rewrite dget_dset_other by assumption; reflexivity.
  - fold (@dkeys (list nat)). change (dkeys (dset k (map Z.to_nat (entries v)) (t_dict t)) = dkeys (t_dict t) ++ (if dmem k (t_dict t) then [] else [k])).
    rewrite dkeys_dset. destruct (dmem k (t_dict t)); [rewrite app_nil_r|]; reflexivity.
Qed.

Lemma set_rejected t k v : snd (t_step t (TSet k v)) <> Ok tt -> fst (t_step t (TSet k v)) = t.
Proof. simpl. destruct (t_set t k v); simpl; congruence. Qed.

(** ** Inferred range *)
Lemma update_ok_legal d : forall t, dget "indices" (t_dict t) = None -> ~ In "indices"%string (dkeys d) ->
  ((exists t', t_update t d = (t', Ok tt)) <-> forall k v, In (k, v) d -> legal (t_n t) k v).
Proof.
  induction d as [|[k v] d IH]; intros t Hi Hd; simpl.
  - split; [intros _ k v []|eauto].
  - simpl in Hd.
    assert (Hk : k <> "indices"%string) by tauto.
    assert (Hd' : ~ In "indices"%string (dkeys d)) by tauto.
    pose proof (set_accepts t k v) as Ha. rewrite noshadow_iff in Ha. specialize (Ha Hi).
    destruct (t_set t k v) as [t1|e] eqn:E.
    + assert (Hi1 : dget "indices" (t_dict t1) = None).
      { apply t_set_ok in E as (_ & _ & _ & ->). simpl. rewrite dget_dset_other; auto. }
      assert (Hn : t_n t1 = t_n t) by (apply t_set_ok in E as (_ & _ & _ & ->); reflexivity).
      rewrite (IH t1 Hi1 Hd'), Hn. split.
      * intros H k' v' [E'|H']; [injection E' as <- <-; apply Ha; eauto|auto].
      * intros H k' v' H'; apply H; auto.
    + split; [intros [t' H]; discriminate|].
      intros H. exfalso. destruct Ha as [_ Ha]. destruct Ha as [t' Ht']; [apply H; auto|]. discriminate.
Qed.

Lemma reserved_iff k : reserved_kw k = true <-> illegal_kw k.
Proof. unfold reserved_kw, illegal_kw. rewrite orb_true_iff, !String.eqb_eq. tauto. Qed.

Lemma tags_new_ok_iff n d : ~ In "indices"%string (map fst d) ->
  ((exists t, tags_new n d = Ok t) <->
   (forall k v, In (k, v) d ->
      ~ illegal_kw k /\
      legal (Z.to_nat (match n with Some n0 => n0 | None => infer_n d end)) k v)).
Proof.
  intros Hi. unfold tags_new.
  set (N := Z.to_nat _).
  pose proof (update_ok_legal d (mkTags N []) eq_refl Hi) as Hu. simpl in Hu.
  assert (Hr : existsb reserved_kw (dkeys d) = false <-> forall k v, In (k, v) d -> ~ illegal_kw k).
  { rewrite <- not_true_iff_false, existsb_exists. split.
    - intros H k v Hkv Hil. apply H. exists k. split; [apply (in_map fst) in Hkv; exact Hkv|apply reserved_iff, Hil].
    - intros H (k & Hk & Hres). apply in_map_iff in Hk as ([k' v'] & E & Hin). simpl in E; subst.
      apply (H _ _ Hin). apply reserved_iff, Hres. }
  destruct (existsb reserved_kw (dkeys d)); simpl.
  - split; [intros [t H]; discriminate|].
    intros H. exfalso. destruct Hr as [_ Hr]. assert (true = false) by (apply Hr; intros; apply (H k v); assumption).
    discriminate.
  - destruct (t_update (mkTags N []) d) as [t' [[]|e]].
    + split; [|eauto]. intros _ k v Hkv. split; [apply (proj1 Hr eq_refl k v Hkv)|]. apply Hu; eauto.
    + split; [intros [t H]; discriminate|]. intros H.
      destruct (proj2 Hu) as [t2 Ht2]; [intros k v Hkv; apply (H k v Hkv)|]. discriminate.
Qed.

Definition listed (d : dict raw) (z : Z) : Prop := exists k v, In (k, v) d /\ In z (entries v).

Lemma listed_concat d z : listed d z <-> In z (concat (map (fun kv => tupleit (snd kv)) d)).
Proof.
  unfold listed. rewrite in_concat. split.
  - intros (k & v & H & Hz). exists (tupleit v). split; [|rewrite tupleit_entries; exact Hz].
    apply in_map_iff. exists (k, v); auto.
  - intros (l & H & Hz). apply in_map_iff in H as ([k v] & <- & H). exists k, v. rewrite <- tupleit_entries; auto.
Qed.

Lemma fold_max_spec l : forall x, (forall y, In y (x :: l) -> (y <= fold_left Z.max l x)%Z) /\ In (fold_left Z.max l x) (x :: l).
Proof.
  induction l as [|a l IH]; intros x; simpl.
  - split; [intros y [->|[]]; lia|auto].
  - destruct (IH (Z.max x a)) as [A B]. split.
    + intros y [->|[->|H]].
      * specialize (A _ (or_introl eq_refl)). lia.
      * specialize (A _ (or_introl eq_refl)). lia.
      * apply A; right; exact H.
    + destruct B as [B|B]; [|auto]. rewrite <- B. destruct (Z.max_spec x a) as [[_ ->]|[_ ->]]; auto.
Qed.

Lemma infer_n_spec d :
  ((forall z, ~ listed d z) -> infer_n d = 0%Z) /\
  (forall z, listed d z -> (z < infer_n d)%Z) /\
  ((exists z, listed d z) -> exists z, listed d z /\ infer_n d = (z + 1)%Z).
Proof.
  unfold infer_n. pose proof (listed_concat d) as Hl.
  destruct (concat (map (fun kv => tupleit (snd kv)) d)) as [|x l] eqn:E.
  - split; [reflexivity|]. split.
    + intros z H. apply Hl in H. destruct H.
    + intros [z H]. apply Hl in H. destruct H.
  - destruct (fold_max_spec l x) as [A B]. split; [|split].
    + intros H. exfalso. apply (H x). apply Hl. left; reflexivity.
    + intros z H. apply Hl in H. specialize (A z H). lia.
    + intros _. exists (fold_left Z.max l x). split; [apply Hl; exact B|lia].
Qed.

Lemma tags_infer_ok_iff d : ~ In "indices"%string (map fst d) ->
  ((exists t, tags_new None d = Ok t) <->
   (forall k v, In (k, v) d ->
      ~ illegal_kw k /\ begins_with_letter k /\ entries v <> [] /\ forall z, In z (entries v) -> (0 <= z)%Z)).
Proof.
  intros Hi. rewrite (tags_new_ok_iff None d Hi). unfold legal. split.
  - intros H k v Hkv. destruct (H k v Hkv) as (A & B & C & D). repeat split; auto. intros z Hz; apply (D z Hz).
  - intros H k v Hkv. destruct (H k v Hkv) as (A & B & C & D). repeat split; auto.
    assert (z < infer_n d)%Z by (apply infer_n_spec; exists k, v; auto).
    rewrite Z2Nat.id; specialize (D z H0); lia.
Qed.

Lemma tags_infer_minimal d t : tags_new None d = Ok t ->
  (forall z, listed d z -> (0 <= z < Z.of_nat (t_n t))%Z) /\
  (forall m, (forall z, listed d z -> (0 <= z < Z.of_nat m)%Z) -> t_n t <= m).
Proof.
  intros H. pose proof (tags_new_n _ _ _ H) as Hn. simpl in Hn.
  assert (Hpos : forall z, listed d z -> (0 <= z)%Z).
  { unfold tags_new in H. binvs. clear Hn Hb v. set (N := Z.to_nat (infer_n d)) in Hk.
    assert (Hg : forall d0 t0 t1, tags_valid t0 -> t_update t0 d0 = (t1, Ok tt) -> forall z, listed d0 z -> (0 <= z)%Z).
    { clear. induction d0 as [|[k v] d0 IH]; simpl; intros t0 t1 Hv H z Hz.
      - destruct Hz as (? & ? & [] & _).
      - destruct (t_set t0 k v) as [t2|e] eqn:E; [|discriminate].
        destruct Hz as (k' & v' & [E'|Hin] & Hz).
        + injection E' as <- <-. apply t_set_ok in E as (_ & _ & Hr & _).
          specialize (Hr z Hz). apply (valid_in_indices _ _ Hv) in Hr. lia.
        + apply (IH t2 t1); [eapply valid_set; eauto|assumption|]. exists k', v'; auto. }
    destruct (t_update (mkTags N []) d) as [t' [[]|e]] eqn:E; [|discriminate].
    exact (Hg d _ _ (valid_empty N) E). }
  destruct (infer_n_spec d) as (A & B & C). split.
  - intros z Hz. specialize (Hpos z Hz). specialize (B z Hz). rewrite Hn. lia.
  - intros m Hm. rewrite Hn.
    destruct (concat (map (fun kv => tupleit (snd kv)) d)) as [|x l] eqn:E.
    + rewrite A; [lia|]. intros z Hz. apply listed_concat in Hz. rewrite E in Hz. destruct Hz.
    + destruct C as (z & Hz & Ez); [exists x; apply listed_concat; rewrite E; left; reflexivity|].
      specialize (Hm z Hz). lia.
Qed.

(** ** Equality of tags *)
Definition same_tags (a b : tags) : Prop :=
  t_n a = t_n b /\ forall k, t_get a k = t_get b k.

Lemma dict_subb_iff d1 d2 : NoDup (dkeys d1) ->
  (dict_subb d1 d2 = true <-> forall k v, dget k d1 = Some v -> dget k d2 = Some v).
Proof.
  intros Hnd. unfold dict_subb. rewrite forallb_forall. unfold nat_list_eqb. split.
  - intros H k v Hk. apply dget_In in Hk. specialize (H _ Hk). simpl in H.
    destruct (dget k d2) as [w|]; [|discriminate]. destruct (list_eq_dec Nat.eq_dec v w); congruence.
  - intros H [k v] Hk. apply (In_dget _ _ _ Hnd) in Hk. simpl. rewrite (H k v Hk).
    destruct (list_eq_dec Nat.eq_dec v v); congruence.
Qed.

Lemma tags_eqb_iff a b : tags_valid a -> tags_valid b ->
  (forall l, ~ reads a "indices" l) -> (forall l, ~ reads b "indices" l) ->
  (tags_eqb a b = true <-> same_tags a b).
Proof.
  intros Ha Hb Ia Ib. apply noshadow_iff in Ia, Ib. unfold tags_eqb, same_tags, t_get, t_indices.
  rewrite Ia, Ib. simpl. rewrite !andb_true_iff, !dict_subb_iff, Nat.eqb_eq by (apply Ha || apply Hb).
  split.
  - intros [[H1 H2] H3]. split; [exact H3|]. intros k. f_equal.
    destruct (dget k (t_dict a)) as [v|] eqn:E; [symmetry; auto|].
    destruct (dget k (t_dict b)) as [w|] eqn:E2; [|reflexivity]. apply H2 in E2; congruence.
  - intros [H1 H2]. assert (Hk : forall k, dget k (t_dict a) = dget k (t_dict b)).
    { intros k. specialize (H2 k). destruct (dget k (t_dict a)), (dget k (t_dict b)); simpl in H2; congruence. }
    repeat split; auto; intros k v H; [rewrite <- Hk|rewrite Hk]; exact H.
Qed.
