(** A tag named "get" stops the selection of channels of an inventory. *)
From Verif Require Import Base BaseLemmas SliceLemmas Arith OrdLaws TagsModel SpecTags TagsProofs
  SyncModel SetModel SpecSet SetProofs SpecSelect TrackProofs SelectProofs ExcludeProofs InvModel SpecInv InvProofs.

Section InvMore.
Context {A : Arith} {V K : Type} (kone : K).
Notation sigset := (@sigset A V K).

Lemma get_keys_shadowed (X : sigset) keys l : reads (ss_tags X) "get" l -> keys <> [] -> get_keys X keys = Err TypeError.
Proof.
  intros Hl Hk. destruct keys as [|k keys]; [congruence|]. unfold get_keys. simpl mapM.
  assert (E : method (ss_tags X) "get" = Err TypeError); [|rewrite E; reflexivity].
  unfold method, shadows, dmem. destruct (dget "get" (t_dict (ss_tags X))) eqn:E; [reflexivity|].
  apply dget_None in E. exfalso. apply E. apply (in_map fst) in Hl. exact Hl.
Qed.

Theorem inv_select_get (inv : list sigset) keys X l :
  (forall X, In X inv -> wf_set X) -> (forall X, In X inv -> plain (ss_tags X)) ->
  In X inv -> reads (ss_tags X) "get" l -> keys <> [] -> inv_select_channels kone inv keys = Err TypeError.
Proof.
  intros HW HP HX Hl Hk. unfold inv_select_channels.
  erewrite (mapM_err_all _ inv TypeError); [reflexivity| |].
  - intros Y HY. destruct (dget "get" (t_dict (ss_tags Y))) as [m|] eqn:E.
    + left. apply dget_In in E. rewrite (get_keys_shadowed Y keys m E Hk). reflexivity.
    + right. destruct (inv_select_channels_ok kone [Y] keys) as [inv' H].
      * intros Z [<-|[]]. apply HW, HY.
      * intros Z [<-|[]]. apply HP, HY.
      * intros Z m [<-|[]] Hm. apply dget_None in E. apply E. apply (in_map fst) in Hm. exact Hm.
      * unfold inv_select_channels in H. apply bind_ok in H as (r & H & _). simpl in H. apply bind_ok in H as (y & H & _). eauto.
  - exists X. split; [exact HX|]. rewrite (get_keys_shadowed X keys l Hl Hk). reflexivity.
Qed.
End InvMore.
