(** Sets for the outcomes of selections and joins. *)
From Coq Require Import QArith Qcanon.
From Verif Require Import Base BaseLemmas SliceLemmas Arith OrdLaws TagsModel SpecTags TagsProofs
  SyncModel SetModel SpecSet SetProofs SpecSelect TrackProofs Samples PropSelect.
Open Scope nat_scope.
Local Open Scope string_scope.

Ltac made := apply set_reach; [vm_compute; reflexivity|intros s Hs; simpl in Hs; repeat destruct Hs as [<-|Hs]; try destruct Hs; apply run_reach; vm_compute; reflexivity].
(** two channels, one name on the first; on the second; one channel *)
Definition first2 : xset := set_of [("E", RInt 0)] [run 2 10 (q 1) (q 0)].
Definition second2 : xset := set_of [("E", RInt 1)] [run 2 10 (q 1) (q 100)].
Definition only1 : xset := set_of [("E", RInt 0)] [run 1 10 (q 1) (q 100)].
(** two names for one channel, or for two *)
Definition alias2 : xset := set_of [("E", RInt 0); ("H", RInt 0)] [run 2 10 (q 1) (q 0)].
Definition names2 : xset := set_of [("E", RInt 0); ("H", RInt 1)] [run 2 10 (q 1) (q 100)].
Definition turned2 : xset := set_of [("H", RInt 0); ("E", RInt 1)] [run 2 10 (q 1) (q 105)].
Definition get1 : xset := set_of [("get", RInt 0); ("E", RInt 1)] [run 2 10 (q 1) (q 0)].
Lemma first2_reach : reach tt first2. Proof. made. Qed.
Lemma second2_reach : reach tt second2. Proof. made. Qed.
Lemma only1_reach : reach tt only1. Proof. made. Qed.
Lemma alias2_reach : reach tt alias2. Proof. made. Qed.
Lemma names2_reach : reach tt names2. Proof. made. Qed.
Lemma turned2_reach : reach tt turned2. Proof. made. Qed.
Lemma get1_reach : reach tt get1. Proof. made. Qed.
