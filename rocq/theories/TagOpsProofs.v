From Verif Require Import Base BaseLemmas TagsModel SpecTags TagsProofs SpecTagOps.
Local Open Scope string_scope.

Lemma has_dmem t k : has_tag t k <-> dmem k (t_dict t) = true.
Proof.
  rewrite dmem_In. unfold has_tag, reads, dkeys. split.
  - intros (l & H). apply in_map_iff. exists (k, l). auto.
  - intros H. apply in_map_iff in H as ((k', l) & <- & H). exists l. exact H.
Qed.

Lemma not_has_dmem t k : ~ has_tag t k <-> dmem k (t_dict t) = false.
Proof.
  rewrite has_dmem. destruct (dmem k (t_dict t)); split; intros; try reflexivity; try discriminate.
  exfalso. apply H. reflexivity.
Qed.

Lemma ddel_split {B} k (d : dict B) : dmem k d = true -> exists a l b, d = (a ++ (k, l) :: b)%list /\ ddel k d = (a ++ b)%list.
Proof.
  induction d as [|[k' v] d IH]; [discriminate|]. unfold dmem. cbn [dget ddel].
  destruct (String.eqb k k') eqn:E.
  - apply String.eqb_eq in E as <-. intros _. exists [], v, d. auto.
  - intros H. destruct IH as (a & l & b & -> & ->); [exact H|]. exists ((k', v) :: a), l, b. auto.
Qed.

Lemma method_ok t m : ~ has_tag t m -> method t m = Ok tt.
Proof. intros H. unfold method, shadows. apply not_has_dmem in H. rewrite H. reflexivity. Qed.
Lemma method_err t m : has_tag t m -> method t m = Err TypeError.
Proof. intros H. unfold method, shadows. apply has_dmem in H. rewrite H. reflexivity. Qed.

Lemma op_delete t k :
  (has_tag t k -> exists t', t_step t (TDel k) = (t', Ok tt) /\ without t k t') /\
  (~ has_tag t k -> t_step t (TDel k) = (t, Err KeyError)).
Proof.
  split; intros H; cbn [t_step]; unfold t_del.
  - apply has_dmem in H. rewrite H. eexists; split; [reflexivity|]. split; [reflexivity|].
    apply ddel_split. exact H.
  - apply not_has_dmem in H. rewrite H. reflexivity.
Qed.

Lemma op_delattr t k :
  (has_tag t k -> t_step t (TDelAttr k) = t_step t (TDel k)) /\
  (~ has_tag t k -> t_step t (TDelAttr k) = (t, Err AttributeError)).
Proof.
  split; intros H; cbn [t_step]; unfold t_del, t_delattr.
  - apply has_dmem in H. rewrite H. reflexivity.
  - apply not_has_dmem in H. rewrite H. reflexivity.
Qed.

Lemma op_setattr t k v :
  (k <> "indices" -> t_step t (TSetAttr k v) = t_step t (TSet k v)) /\
  t_step t (TSetAttr "indices" v) = (t, Err AttributeError).
Proof.
  split.
  - intros H. cbn [t_step]. unfold t_setattr. apply String.eqb_neq in H. rewrite H. reflexivity.
  - reflexivity.
Qed.

Lemma op_pop t k :
  (~ has_tag t "pop" -> t_step t (TPop k) = t_step t (TDel k)) /\
  (has_tag t "pop" -> t_step t (TPop k) = (t, Err TypeError)).
Proof.
  split; intros H; cbn [t_step]; [rewrite (method_ok _ _ H)|rewrite (method_err _ _ H)]; reflexivity.
Qed.

Lemma op_popitem t :
  (~ has_tag t "popitem" -> t_dict t = [] -> t_step t TPopitem = (t, Err KeyError)) /\
  (~ has_tag t "popitem" -> forall k l d, t_dict t = (k, l) :: d ->
     exists t', t_step t TPopitem = (t', Ok tt) /\ t_n t' = t_n t /\ t_dict t' = d) /\
  (has_tag t "popitem" -> t_step t TPopitem = (t, Err TypeError)).
Proof.
  split; [|split]; intros H; cbn [t_step]; try (rewrite (method_ok _ _ H)); try (rewrite (method_err _ _ H)); cbn [bind].
  - intros E. unfold t_popitem. rewrite E. reflexivity.
  - intros k l d E. unfold t_popitem. rewrite E. eexists; split; [reflexivity|]. auto.
  - reflexivity.
Qed.

Lemma op_setdefault t k v :
  (~ has_tag t "setdefault" -> has_tag t k -> t_step t (TSetdefault k v) = (t, Ok tt)) /\
  (~ has_tag t "setdefault" -> ~ has_tag t k -> t_step t (TSetdefault k v) = t_step t (TSet k v)) /\
  (has_tag t "setdefault" -> t_step t (TSetdefault k v) = (t, Err TypeError)).
Proof.
  split; [|split]; intros H; cbn [t_step]; try (rewrite (method_ok _ _ H)); try (rewrite (method_err _ _ H)); cbn [bind].
  - intros E. apply has_dmem in E. rewrite E. reflexivity.
  - intros E. apply not_has_dmem in E. rewrite E. reflexivity.
  - reflexivity.
Qed.

Lemma op_clear t :
  (~ has_tag t "clear" -> ~ has_tag t "popitem" ->
     exists t', t_step t TClear = (t', Ok tt) /\ t_n t' = t_n t /\ t_dict t' = []) /\
  (has_tag t "clear" \/ has_tag t "popitem" -> t_step t TClear = (t, Err TypeError)).
Proof.
  split.
  - intros H1 H2. cbn [t_step]. rewrite (method_ok _ _ H1), (method_ok _ _ H2). cbn [bind]. eexists; split; [reflexivity|]. auto.
  - intros H. cbn [t_step]. unfold method at 1, shadows. destruct (dmem "clear" (t_dict t)) eqn:E; [reflexivity|].
    destruct H as [H|H]; [apply has_dmem in H; congruence|]. cbn [check negb bind]. rewrite (method_err _ _ H). reflexivity.
Qed.

Lemma update_split d : forall t, exists p q, d = (p ++ q)%list /\
  fst (t_update t d) = t_run t (assignments p) /\
  (forall p1 k v p2, p = (p1 ++ (k, v) :: p2)%list -> snd (t_step (t_run t (assignments p1)) (TSet k v)) = Ok tt) /\
  ((q = [] /\ snd (t_update t d) = Ok tt) \/
   exists k v q' e, q = (k, v) :: q' /\ snd (t_step (t_run t (assignments p)) (TSet k v)) = Err e /\ snd (t_update t d) = Err e).
Proof.
  induction d as [|[k v] d IH]; intros t; cbn [t_update].
  - exists [], []. split; [reflexivity|]. split; [reflexivity|]. split; [|left; auto].
    intros p1 k v p2 H. destruct p1; discriminate.
  - destruct (t_set t k v) as [t'|e] eqn:E.
    + destruct (IH t') as (p & q & -> & H1 & H2 & H3). exists ((k, v) :: p), q.
      assert (Er : forall p1, t_run t (assignments ((k, v) :: p1)) = t_run t' (assignments p1)).
      { intros p1. unfold t_run, assignments. cbn [map fold_left fst snd t_step]. rewrite E. reflexivity. }
      split; [reflexivity|]. split; [rewrite Er; exact H1|]. split.
      * intros [|[k1 v1] p1] k2 v2 p2 Hp.
        -- cbn in Hp. injection Hp as <- <- _. cbn [assignments map t_run fold_left t_step]. rewrite E. reflexivity.
        -- cbn in Hp. injection Hp as <- <- Hp. rewrite Er. exact (H2 _ _ _ _ Hp).
      * rewrite Er. exact H3.
    + exists [], ((k, v) :: d). split; [reflexivity|]. split; [reflexivity|]. split.
      * intros p1 k1 v1 p2 H. destruct p1; discriminate.
      * right. exists k, v, d, e. split; [reflexivity|]. cbn [assignments map t_run fold_left t_step]. rewrite E. auto.
Qed.

Lemma op_update t d :
  (~ has_tag t "update" -> exists p q t', d = (p ++ q)%list /\ fst (t_step t (TUpdate d)) = t' /\
     t' = t_run t (assignments p) /\
     (forall p1 k v p2, p = (p1 ++ (k, v) :: p2)%list -> snd (t_step (t_run t (assignments p1)) (TSet k v)) = Ok tt) /\
     ((q = [] /\ snd (t_step t (TUpdate d)) = Ok tt) \/
      exists k v q' e, q = (k, v) :: q' /\ snd (t_step t' (TSet k v)) = Err e /\ snd (t_step t (TUpdate d)) = Err e)) /\
  (has_tag t "update" -> t_step t (TUpdate d) = (t, Err TypeError)).
Proof.
  split; intros H; cbn [t_step]; [rewrite (method_ok _ _ H)|rewrite (method_err _ _ H); reflexivity].
  destruct (update_split d t) as (p & q & H1 & H2 & H3 & H4). exists p, q, (t_run t (assignments p)). auto 6.
Qed.
