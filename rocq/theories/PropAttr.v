(** Attribute access and copies of signal sets: property C98. *)
From Coq Require Import QArith Qcanon.
From Verif Require Import Base BaseLemmas Arith OrdLaws TagsModel SpecTags SyncModel SetModel SpecSet SpecSelect
  AttrModel SpecAttr AttrProofs Samples PropSelect.
Open Scope nat_scope. Local Open Scope string_scope. Local Open Scope list_scope.

(** C98: [s.k] is [s[k]] for a tag [k] that is not named like a member of the class:
    the same runs with exactly the channels of the tag. *)
Theorem C98_selects :
  forall (A : Arith) (L : OrdLaws A) (V K : Type) (kone : K) (X : @sigset A V K) (k : string) (l : list nat),
  reach kone X -> plain (ss_tags X) -> reads (ss_tags X) k l -> ~ In k of_the_class ->
  exists Y sel, (forall n, 3 <= n -> attribute kone n (Built X) k = Done (Ok (PSet Y))) /\
  getitem kone X (GChan (SelOne (CName k))) = Ok Y /\
  StronglySorted lt sel /\ (forall i, In i sel <-> In i l) /\ Forall2 (run_selected sel) (ss_signals X) (ss_signals Y).
Proof. intros A L V K kone. exact (attr_tag kone L). Qed.
Print Assumptions C98_selects.

(** C98: any other public name is an AttributeError. *)
Theorem C98_unknown :
  forall (A : Arith) (V K : Type) (kone : K) (X : @sigset A V K) (k : string),
  public k -> (forall l, ~ reads (ss_tags X) k l) -> ~ In k of_the_class ->
  forall n, 3 <= n -> attribute kone n (Built X) k = Done (Err AttributeError).
Proof. exact @attr_unknown. Qed.
Print Assumptions C98_unknown.

(** C98: a member of the class hides the tag of the same name, which is only
    reached by [s[k]]. *)
Theorem C98_class :
  forall (A : Arith) (V K : Type) (kone : K) (n : nat) (X : @sigset A V K) (k : string),
  3 <= n -> In k of_the_class ->
  attribute kone n (Built X) k =
  Done (Ok (if String.eqb k "tags" then PTags (ss_tags X) else if String.eqb k "signals" then PSignals (ss_signals X) else PMember k)).
Proof. exact @class_attributes. Qed.
Print Assumptions C98_class.

(** C98: [hasattr(s, k)] for a public name: the tags and the members of the class. *)
Theorem C98_hasattr :
  forall (A : Arith) (L : OrdLaws A) (V K : Type) (kone : K) (X : @sigset A V K) (k : string),
  reach kone X -> plain (ss_tags X) -> public k ->
  exists b, (forall n, 3 <= n -> has_attribute kone n (Built X) k = Done (Ok b)) /\
  (b = true <-> In k of_the_class \/ exists l, reads (ss_tags X) k l).
Proof. intros A L V K kone. exact (attr_has kone L). Qed.
Print Assumptions C98_hasattr.

(** C98: on an object whose fields are not set, looking up anything but a method
    never ends: it exceeds every recursion limit. *)
Theorem C98_blank :
  forall (A : Arith) (V K : Type) (kone : K) (n : nat) (k : string),
  ~ In k methods -> attribute kone n (@Blank A V K) k = RecursionError.
Proof. exact @blank_get. Qed.
Print Assumptions C98_blank.

(** C98: so no signal set can be copied or unpickled. *)
Theorem C98_copies_refuted :
  forall (A : Arith) (V K : Type) (kone : K) (n : nat) (X : @sigset A V K), copied kone n X = RecursionError.
Proof. exact @not_copied. Qed.
Print Assumptions C98_copies_refuted.

(** two channels with the tags E and merge *)
Definition s_tags : tagarg := TDict [("E", RTuple [0%Z]); ("merge", RTuple [1%Z])].
Definition s_run : res (sync QA Z unit) := sync_new (A := QA) tt [[1%Z; 2%Z]; [3%Z; 4%Z]] (Q2Qc 1) (Q2Qc 0) None.
Definition s_set : res (@sigset QA Z unit) := s <- s_run ;; set_new tt s_tags [ASync s].
Definition s_seen (o : outcome (@pval QA Z unit)) : option (list (list (list Z)) + string) :=
  match o with
  | Done (Ok (PSet Y)) => Some (inl (map (@s_data QA Z unit) (ss_signals Y)))
  | Done (Ok (PMember m)) => Some (inr m)
  | Done (Err AttributeError) => Some (inr "AttributeError")
  | _ => None
  end.
Example C98_example :
  (match s_set with
   | Ok X => (s_seen (attribute tt 3 (Built X) "E"), s_seen (attribute tt 3 (Built X) "merge"), s_seen (attribute tt 3 (Built X) "Z"),
              match getitem tt X (GChan (SelOne (CName "merge"))) with Ok Y => map (@s_data QA Z unit) (ss_signals Y) | Err _ => [] end)
   | Err _ => (None, None, None, [])
   end) = (Some (inl [[[1; 2]]]%Z), Some (inr "merge"), Some (inr "AttributeError"), [[[3; 4]]]%Z) /\
  reach tt setA /\ plain (ss_tags setA) /\ reads (ss_tags setA) "H" [1] /\ ~ In "H" of_the_class /\
  ~ In "__setstate__" methods /\ In "__class__" methods.
Proof.
  split; [vm_compute; reflexivity|]. split; [exact setA_reach|]. split; [exact setA_plain|].
  split; [vm_compute; auto|]. split; [intros H; apply memb_str in H; vm_compute in H; discriminate|].
  split; [intros H; apply memb_str in H; vm_compute in H; discriminate|]. apply memb_str. vm_compute. reflexivity.
Qed.
