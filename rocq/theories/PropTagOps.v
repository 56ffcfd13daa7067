(** C92: the operations of a dictionary on Tags. *)
From Verif Require Import Base TagsModel SpecTags SpecTagOps TagOpsProofs.
Local Open Scope string_scope.

Theorem C92_delete : forall t k,
  (has_tag t k -> exists t', t_step t (TDel k) = (t', Ok tt) /\ without t k t') /\
  (~ has_tag t k -> t_step t (TDel k) = (t, Err KeyError)).
Proof. exact op_delete. Qed.
Print Assumptions C92_delete.

Theorem C92_delete_attribute : forall t k,
  (has_tag t k -> t_step t (TDelAttr k) = t_step t (TDel k)) /\
  (~ has_tag t k -> t_step t (TDelAttr k) = (t, Err AttributeError)).
Proof. exact op_delattr. Qed.
Print Assumptions C92_delete_attribute.

Theorem C92_set_attribute : forall t k v,
  (k <> "indices" -> t_step t (TSetAttr k v) = t_step t (TSet k v)) /\
  t_step t (TSetAttr "indices" v) = (t, Err AttributeError).
Proof. exact op_setattr. Qed.
Print Assumptions C92_set_attribute.

Theorem C92_pop : forall t k,
  (~ has_tag t "pop" -> t_step t (TPop k) = t_step t (TDel k)) /\
  (has_tag t "pop" -> t_step t (TPop k) = (t, Err TypeError)).
Proof. exact op_pop. Qed.
Print Assumptions C92_pop.

Theorem C92_popitem : forall t,
  (~ has_tag t "popitem" -> t_dict t = [] -> t_step t TPopitem = (t, Err KeyError)) /\
  (~ has_tag t "popitem" -> forall k l d, t_dict t = (k, l) :: d ->
     exists t', t_step t TPopitem = (t', Ok tt) /\ t_n t' = t_n t /\ t_dict t' = d) /\
  (has_tag t "popitem" -> t_step t TPopitem = (t, Err TypeError)).
Proof. exact op_popitem. Qed.
Print Assumptions C92_popitem.

Theorem C92_setdefault : forall t k v,
  (~ has_tag t "setdefault" -> has_tag t k -> t_step t (TSetdefault k v) = (t, Ok tt)) /\
  (~ has_tag t "setdefault" -> ~ has_tag t k -> t_step t (TSetdefault k v) = t_step t (TSet k v)) /\
  (has_tag t "setdefault" -> t_step t (TSetdefault k v) = (t, Err TypeError)).
Proof. exact op_setdefault. Qed.
Print Assumptions C92_setdefault.

Theorem C92_clear : forall t,
  (~ has_tag t "clear" -> ~ has_tag t "popitem" ->
     exists t', t_step t TClear = (t', Ok tt) /\ t_n t' = t_n t /\ t_dict t' = []) /\
  (has_tag t "clear" \/ has_tag t "popitem" -> t_step t TClear = (t, Err TypeError)).
Proof. exact op_clear. Qed.
Print Assumptions C92_clear.

(** an update assigns the items one after the other up to the first one that is
    refused; the exception is then that of the refused assignment *)
Theorem C92_update : forall t d,
  (~ has_tag t "update" -> exists p q t', d = (p ++ q)%list /\ fst (t_step t (TUpdate d)) = t' /\
     t' = t_run t (assignments p) /\
     (forall p1 k v p2, p = (p1 ++ (k, v) :: p2)%list -> snd (t_step (t_run t (assignments p1)) (TSet k v)) = Ok tt) /\
     ((q = [] /\ snd (t_step t (TUpdate d)) = Ok tt) \/
      exists k v q' e, q = (k, v) :: q' /\ snd (t_step t' (TSet k v)) = Err e /\ snd (t_step t (TUpdate d)) = Err e)) /\
  (has_tag t "update" -> t_step t (TUpdate d) = (t, Err TypeError)).
Proof. exact op_update. Qed.
Print Assumptions C92_update.

Example C92_example :
  let t := mkTags 3 [("E", [0]); ("H", [1; 2]); ("pop", [1])] in
  t_step t (TDel "H") = (mkTags 3 [("E", [0]); ("pop", [1])], Ok tt) /\
  t_step t (TPop "H") = (t, Err TypeError) /\
  t_step t TPopitem = (mkTags 3 [("H", [1; 2]); ("pop", [1])], Ok tt) /\
  t_step t (TSetdefault "E" (RInt 2%Z)) = (t, Ok tt) /\
  t_step t (TSetdefault "F" (RInt 3%Z)) = (t, Err ValueError) /\
  t_step t (TUpdate [("H", RInt 0%Z); ("F", RInt 3%Z); ("E", RInt 1%Z)])
    = (mkTags 3 [("E", [0]); ("H", [0]); ("pop", [1])], Err ValueError) /\
  t_step t TClear = (mkTags 3 [], Ok tt) /\
  t_step t (TDelAttr "none") = (t, Err AttributeError) /\
  t_step t (TDel "none") = (t, Err KeyError).
Proof. vm_compute. repeat split. Qed.
