(** C111: the values returned by the methods that tags inherit from dictionaries. *)
From Verif Require Import Base TagsModel SpecTags SpecTagOps TagValueModel TagValueProofs.
Local Open Scope string_scope.

Theorem C111_get : forall t k default, tags_valid t ->
  (~ has_tag t "get" -> forall l, reads t k l -> t_get_default t k default = Ok (VTag l)) /\
  (~ has_tag t "get" -> ~ has_tag t k -> t_get_default t k default = Ok (match default with Some v => VArg v | None => VNone end)) /\
  (has_tag t "get" -> t_get_default t k default = Err TypeError).
Proof. exact value_get. Qed.
Print Assumptions C111_get.

(** [pop] returns the value of the tag that it removes, or the default *)
Theorem C111_pop : forall t k default, tags_valid t ->
  (~ has_tag t "pop" -> forall l, reads t k l -> exists t', t_pop t k default = (t', Ok (VTag l)) /\ without t k t' /\ ~ has_tag t' k) /\
  (~ has_tag t "pop" -> ~ has_tag t k -> t_pop t k default = (t, match default with Some v => Ok (VArg v) | None => Err KeyError end)) /\
  (has_tag t "pop" -> t_pop t k default = (t, Err TypeError)).
Proof. exact value_pop. Qed.
Print Assumptions C111_pop.

(** [popitem] returns the first item, not the last one as a dictionary does *)
Theorem C111_popitem : forall t, tags_valid t ->
  (~ has_tag t "popitem" -> forall k l d, t_dict t = (k, l) :: d -> t_popitem_value t = (mkTags (t_n t) d, Ok (k, l))) /\
  (~ has_tag t "popitem" -> t_dict t = [] -> t_popitem_value t = (t, Err KeyError)) /\
  (has_tag t "popitem" -> t_popitem_value t = (t, Err TypeError)).
Proof. exact value_popitem. Qed.
Print Assumptions C111_popitem.

(** [setdefault] returns the value of the tag when it exists, and otherwise the object
    it was given once the assignment has succeeded *)
Theorem C111_setdefault : forall t k v, tags_valid t ->
  (~ has_tag t "setdefault" -> forall l, reads t k l -> t_setdefault t k (Some v) = (t, Ok (VTag l))) /\
  (~ has_tag t "setdefault" -> ~ has_tag t k ->
     t_setdefault t k (Some v) = (fst (t_step t (TSet k v)), match snd (t_step t (TSet k v)) with Ok _ => Ok (VArg v) | Err e => Err e end)) /\
  (has_tag t "setdefault" -> t_setdefault t k (Some v) = (t, Err TypeError)).
Proof. exact value_setdefault. Qed.
Print Assumptions C111_setdefault.

(** the tag then has the members of that object ... *)
Theorem C111_setdefault_members : forall t k v t', ~ has_tag t k -> t_setdefault t k (Some v) = (t', Ok (VArg v)) ->
  exists l, t_get t' k = Ok l /\ map Z.of_nat l = entries v.
Proof. exact value_setdefault_same. Qed.
Print Assumptions C111_setdefault_members.

(** ... but is not that object: the value returned the first time and the one returned
    the second time differ *)
Theorem C111_setdefault_refuted :
  let t := mkTags 3 [("E", [0])] in
  tags_valid t /\
  exists t', t_setdefault t "H" (Some (RInt 2)) = (t', Ok (VArg (RInt 2))) /\ t_setdefault t' "H" (Some (RInt 2)) = (t', Ok (VTag [2])).
Proof.
  split; [|eexists; split; reflexivity]. constructor.
  - intros k l [[= <- <-]|[]]. exists "E"%char, "". split; [reflexivity|]. vm_compute. tauto.
  - intros k l [[= <- <-]|[]]. discriminate.
  - intros k l c [[= <- <-]|[]] [<-|[]]. cbn. lia.
  - repeat constructor. intros [].
Qed.
Print Assumptions C111_setdefault_refuted.

(** without a default a missing tag is always refused *)
Theorem C111_setdefault_none : forall t k, tags_valid t -> ~ has_tag t k -> exists e, t_setdefault t k None = (t, Err e).
Proof. exact value_setdefault_none. Qed.
Print Assumptions C111_setdefault_none.

(** These methods change the tags, and raise, as the operations of C92 do. *)
Theorem C111_changes : forall t k v, tags_valid t ->
  (fst (t_pop t k None) = fst (t_step t (TPop k)) /\ (forall e, snd (t_pop t k None) = Err e <-> snd (t_step t (TPop k)) = Err e)) /\
  (fst (t_popitem_value t) = fst (t_step t TPopitem) /\ (forall e, snd (t_popitem_value t) = Err e <-> snd (t_step t TPopitem) = Err e)) /\
  (fst (t_setdefault t k (Some v)) = fst (t_step t (TSetdefault k v)) /\ (forall e, snd (t_setdefault t k (Some v)) = Err e <-> snd (t_step t (TSetdefault k v)) = Err e)).
Proof. exact value_states. Qed.
Print Assumptions C111_changes.

Example C111_example :
  let t := mkTags 3 [("E", [0]); ("H", [1; 2]); ("get", [1])] in
  t_pop t "H" None = (mkTags 3 [("E", [0]); ("get", [1])], Ok (VTag [1; 2])) /\
  t_pop t "F" (Some (RInt 7)) = (t, Ok (VArg (RInt 7))) /\
  t_pop t "F" None = (t, Err KeyError) /\
  t_popitem_value t = (mkTags 3 [("H", [1; 2]); ("get", [1])], Ok ("E", [0])) /\
  t_get_default t "E" None = Err TypeError /\
  t_get_default (fst (t_step t (TDel "get"))) "F" None = Ok VNone /\
  t_setdefault t "F" (Some (RList [2; 0]%Z)) = (mkTags 3 [("E", [0]); ("H", [1; 2]); ("get", [1]); ("F", [2; 0])], Ok (VArg (RList [2; 0]%Z))) /\
  t_setdefault t "F" (Some (RInt 3)) = (t, Err ValueError).
Proof. vm_compute. auto 10. Qed.
