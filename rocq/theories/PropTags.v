(** C01-C03, C75: Tags. *)
From Verif Require Import Base TagsModel SpecTags TagsProofs TagsReadProofs.
Local Open Scope string_scope.

(** C01: validity is kept by every history of operations, including failing ones. *)
Theorem C01_tags_valid_history : forall n d t ops,
  tags_new n d = Ok t -> tags_valid (t_run t ops) /\ t_n (t_run t ops) = t_n t.
Proof. exact tags_history. Qed.
Print Assumptions C01_tags_valid_history.

Example C01_example :
  exists t, tags_new (Some 3%Z) [("E", RList [0; 1]%Z)] = Ok t /\
    t_run t [TSet "H" (RInt 2%Z); TSet "bad" (RInt 7%Z); TDel "none"; TSetAttr "B" (RTuple [2; 2]%Z);
             TUpdate [("E", RInt 1%Z); ("9", RInt 0%Z); ("F", RInt 0%Z)]]
    = mkTags 3 [("E", [1]); ("H", [2]); ("B", [2; 2])].
Proof. eexists; split; vm_compute; reflexivity. Qed.

(** C02: assignment succeeds exactly on legal items and has exactly the dictionary effect. *)
Theorem C02_set_accepts_legal : forall t k v,
  (forall l, ~ reads t "indices" l) ->
  ((exists t', t_set t k v = Ok t') <-> legal (t_n t) k v).
Proof. exact set_accepts. Qed.
Print Assumptions C02_set_accepts_legal.

Theorem C02_set_effect : forall t k v t', tags_valid t -> t_set t k v = Ok t' ->
  (exists l, map Z.of_nat l = entries v /\ t_get t' k = Ok l /\ t_getattr t' k = Ok l) /\
  (forall k2, k2 <> k -> t_get t' k2 = t_get t k2 /\ t_getattr t' k2 = t_getattr t k2) /\
  t_n t' = t_n t /\
  map fst (t_dict t') = (map fst (t_dict t) ++ (if dmem k (t_dict t) then [] else [k]))%list.
Proof. exact set_effect. Qed.
Print Assumptions C02_set_effect.

Theorem C02_rejected_set_is_noop : forall t k v,
  snd (t_step t (TSet k v)) <> Ok tt -> fst (t_step t (TSet k v)) = t.
Proof. exact set_rejected. Qed.
Print Assumptions C02_rejected_set_is_noop.

(** items and attributes hold the same tags; a missing one raises KeyError or
    AttributeError *)
Theorem C02_reading : forall t k, tags_valid t ->
  (forall l, reads t k l -> t_get t k = Ok l /\ t_getattr t k = Ok l) /\
  ((forall l, ~ reads t k l) -> t_get t k = Err KeyError /\ t_getattr t k = Err AttributeError).
Proof. exact read_tag. Qed.
Print Assumptions C02_reading.

Theorem C02_removing : forall t k, tags_valid t ->
  (forall l, reads t k l -> exists t', t_del t k = Ok t' /\ t_delattr t k = Ok t' /\ t_n t' = t_n t /\
     (forall k2 l2, reads t' k2 l2 <-> reads t k2 l2 /\ k2 <> k)) /\
  ((forall l, ~ reads t k l) -> t_del t k = Err KeyError /\ t_delattr t k = Err AttributeError).
Proof. exact remove_tag. Qed.
Print Assumptions C02_removing.

(** the exception: a tag called 'indices' replaces the range in the check *)
Theorem C02_indices_tag_restricts : forall t k v li, tags_valid t ->
  reads t "indices" li ->
  ((exists t', t_set t k v = Ok t') <->
   begins_with_letter k /\ entries v <> [] /\ forall z, In z (entries v) -> In z (map Z.of_nat li)).
Proof. exact set_accepts_shadowed. Qed.
Print Assumptions C02_indices_tag_restricts.

Theorem C02_indices_tag_refuted : exists n d t k v,
  tags_new n d = Ok t /\ legal (t_n t) k v /\ t_set t k v = Err ValueError.
Proof.
  exists (Some 3%Z), [("indices", RInt 0%Z)], (mkTags 3 [("indices", [0])]), "E", (RInt 1%Z).
  split; [reflexivity|]. split; [|reflexivity].
  split; [exists "E"%char, ""; split; [reflexivity|apply is_alpha_letters; reflexivity]|].
  split; [discriminate|]. intros z [<-|[]]. simpl. lia.
Qed.
Print Assumptions C02_indices_tag_refuted.

Example C02_example :
  let t := mkTags 4 [("E", [0; 1])] in
  t_set t "H" (RTuple [3; 2]%Z) = Ok (mkTags 4 [("E", [0; 1]); ("H", [3; 2])]) /\
  t_set t "E" (RInt 3%Z) = Ok (mkTags 4 [("E", [3])]) /\
  t_set t "H" (RTuple []) = Err AssertionError /\
  t_set t "_H" (RInt 0%Z) = Err AssertionError /\
  t_set t "H" (RInt (-1)%Z) = Err ValueError /\
  t_set t "H" (RInt 4%Z) = Err ValueError.
Proof. vm_compute. repeat split. Qed.

(** C03: range inferred from the listed channels. [illegal_kw] are the two names
    that collide with parameters of the constructor. *)
Theorem C03_infer_accepts : forall d, ~ In "indices" (map fst d) ->
  ((exists t, tags_new None d = Ok t) <->
   (forall k v, In (k, v) d ->
      ~ illegal_kw k /\ begins_with_letter k /\ entries v <> [] /\
      forall z, In z (entries v) -> (0 <= z)%Z)).
Proof. exact tags_infer_ok_iff. Qed.
Print Assumptions C03_infer_accepts.

Theorem C03_infer_minimal : forall d t, tags_new None d = Ok t ->
  (forall z, listed d z -> (0 <= z < Z.of_nat (t_n t))%Z) /\
  (forall m, (forall z, listed d z -> (0 <= z < Z.of_nat m)%Z) -> t_n t <= m).
Proof. exact tags_infer_minimal. Qed.
Print Assumptions C03_infer_minimal.

Theorem C03_explicit_accepts : forall n d, ~ In "indices" (map fst d) ->
  ((exists t, tags_new (Some n) d = Ok t) <->
   (forall k v, In (k, v) d -> ~ illegal_kw k /\ legal (Z.to_nat n) k v)).
Proof. exact (fun n d => tags_new_ok_iff (Some n) d). Qed.
Print Assumptions C03_explicit_accepts.

Example C03_example :
  tags_new None [("E", RList [1; 4]%Z); ("H", RInt 2%Z)] = Ok (mkTags 5 [("E", [1; 4]); ("H", [2])]) /\
  tags_new None [] = Ok (mkTags 0 []) /\
  tags_new None [("E", RInt (-1)%Z)] = Err ValueError /\
  tags_new None [("n", RInt 1%Z)] = Err TypeError /\
  (* the excluded name: an 'indices' tag given first restricts the others *)
  tags_new None [("indices", RInt 0%Z); ("E", RInt 1%Z)] = Err ValueError.
Proof. vm_compute. repeat split. Qed.

(** C75: equality of tags compares range and associations, not insertion order. *)
Theorem C75_tags_equality : forall a b, tags_valid a -> tags_valid b ->
  (forall l, ~ reads a "indices" l) -> (forall l, ~ reads b "indices" l) ->
  (tags_eqb a b = true <-> (t_n a = t_n b /\ forall k, t_get a k = t_get b k)).
Proof. exact tags_eqb_iff. Qed.
Print Assumptions C75_tags_equality.

Example C75_example :
  tags_eqb (mkTags 3 [("E", [0]); ("H", [1; 2])]) (mkTags 3 [("H", [1; 2]); ("E", [0])]) = true /\
  tags_eqb (mkTags 3 [("E", [0]); ("H", [1; 2])]) (mkTags 3 [("H", [2; 1]); ("E", [0])]) = false /\
  tags_eqb (mkTags 3 [("E", [0])]) (mkTags 4 [("E", [0])]) = false.
Proof. vm_compute. repeat split. Qed.
