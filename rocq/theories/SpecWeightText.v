(** Specification vocabulary for the texts of weights. *)
From Coq Require Import QArith.
From Verif Require Import Base SpecRepr SpecNumText SpecSetText WeightTextModel.
Open Scope nat_scope. Local Open Scope string_scope. Local Open Scope list_scope. Local Open Scope nat_scope.

(** the text of an object; [titled w s n]: a weight [w] with the text [s] is listed as [n] *)
Inductive titled : wobj -> string -> string -> Prop :=
| ti_func : forall n t s, titled (WFunc n t) s n
| ti_seq : forall c n s, titled (WSeq c (Some n)) s n
| ti_none : forall s, titled WNone s s
| ti_huber : forall a s, titled (WHuber a) s s
| ti_thomson : forall x s, titled (WThomson x) s s
| ti_bounded : forall i l k s, titled (WBounded i l k) s s.
Inductive shown : wobj -> string -> Prop :=
| sw_none : shown WNone "None"
| sw_func : forall n t, shown (WFunc n t) t
| sw_huber : forall a t, approx 6 a t -> shown (WHuber a) ("Huber(" ++ t ++ ")")%string
| sw_thomson : shown (WThomson None) "Thomson()"
| sw_threshold : forall x t, approx 6 x t -> shown (WThomson (Some x)) ("Thomson(" ++ t ++ ")")%string
| sw_bounded : forall i l k s n tl tk, shown i s -> titled i s n \/ (exists c, i = WSeq c None /\ n = "None") -> approx 6 l tl -> approx 6 k tk ->
    shown (WBounded i l k) ("BoundedInfluenceStep(" ++ n ++ ", " ++ tl ++ ", " ++ tk ++ ")")%string
| sw_named : forall c n, shown (WSeq c (Some n)) n
| sw_listed : forall c ts, members c ts -> shown (WSeq c None) ("(" ++ listed ts ++ ")")%string
with members : list wobj -> list string -> Prop :=
| me_nil : members [] []
| me_cons : forall w s n c ts, shown w s -> titled w s n -> members c ts -> members (w :: c) (n :: ts).

(** a weight that is not a sequence and holds none *)
Fixpoint simple (w : wobj) : Prop :=
  match w with WSeq _ _ => False | WBounded i _ _ => simple i | _ => True end.
