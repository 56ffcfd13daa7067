(** Concrete signal sets for the theorems about consecutive runs. *)
From Coq Require Import QArith Qcanon.
From Verif Require Import Base BaseLemmas Arith OrdLaws QcLemmas TagsModel SpecTags SyncModel SetModel SpecSet SetProofs SpecSelect
  SelectProofs SpecTime ExtractProofs ExtractSet ExcludeProofs SpecConsec ConsecProofs ConsecSet ConsecTime ConsecOk Samples.
Open Scope nat_scope.

Fixpoint adj_b {B} (f : B -> B -> bool) (l : list B) : bool :=
  match l with x :: ((y :: _) as l') => f x y && adj_b f l' | _ => true end.
Lemma adj_dec {B} (f : B -> B -> bool) l : adj_b f l = true -> forall x y, adjacent l x y -> f x y = true.
Proof.
  intros H x y (l1 & l2 & ->). induction l1 as [|z l1 IH].
  - simpl in H. apply andb_true_iff in H. apply H.
  - apply IH. destruct l1; simpl in *; apply andb_true_iff in H; apply H.
Qed.
Definition exact_b (X : xset) : bool :=
  adj_b (fun r r' => negb (followsb r r') || (Qc_eq_bool (s_rate r') (s_rate r) && Qc_eq_bool (gap r r') (period r))) (ss_signals X).
Lemma exact_dec (X : xset) : exact_b X = true -> exact_gaps X.
Proof.
  intros H r r' Ha Hf. pose proof (adj_dec _ _ H r r' Ha) as E. cbv beta in E. apply followsb_iff in Hf. rewrite Hf in E. simpl in E.
  apply andb_true_iff in E as [E1 E2]. split; apply Qc_eq_bool_correct; assumption.
Qed.
Definition apart_b (X : xset) : bool := adj_b (fun r r' => negb (followsb r r')) (ss_signals X).
Lemma apart_dec (X : xset) : apart_b X = true -> forall r r', adjacent (ss_signals X) r r' -> ~ follows r r'.
Proof. intros H r r' Ha Hf. pose proof (adj_dec _ _ H r r' Ha) as E. cbv beta in E. apply followsb_iff in Hf. rewrite Hf in E. discriminate. Qed.
Definition fullpos_b (X : xset) : bool := forallb (fun s : xsync => nltb QA (q 0) (s_rate s) && (0 <? s_size s)) (ss_signals X).
Lemma fullpos_dec (X : xset) : fullpos_b X = true -> positive_rates X /\ no_empty_run X.
Proof.
  intros H. unfold fullpos_b in H. rewrite forallb_forall in H. split; intros s Hs; specialize (H s Hs); apply andb_true_iff in H as [H1 H2].
  - apply Qcltb_lt. exact H1.
  - apply Nat.ltb_lt, H2.
Qed.

(** [0,9] and [10,14] at 1 Hz are consecutive; [20,25.5] at 2 Hz; [30,34] and [35,39] at 1 Hz *)
Definition runsG : list xsync :=
  [run 2 10 (q 1) (q 0); run 2 5 (q 1) (q 10); run 2 12 (q 2) (q 20); run 2 5 (q 1) (q 30); run 2 5 (q 1) (q 35)].
Definition setG : xset := set_of tagsA runsG.
Lemma setG_reach : reach tt setG.
Proof. apply set_reach; [vm_compute; reflexivity|]. intros s [<-|[<-|[<-|[<-|[<-|[]]]]]]; apply run_reach; vm_compute; reflexivity. Qed.
Lemma setG_distinct : distinct_starts (ss_signals setG). Proof. apply distinct_dec. vm_compute. reflexivity. Qed.
Lemma setG_pos : positive_rates setG. Proof. apply fullpos_dec. vm_compute. reflexivity. Qed.
Lemma setG_full : no_empty_run setG. Proof. apply fullpos_dec. vm_compute. reflexivity. Qed.
Lemma setG_exact : exact_gaps setG. Proof. apply exact_dec. vm_compute. reflexivity. Qed.

(** at 1 Hz, the second run starts 1e-5 s early; the third one, at 2 Hz, starts half of this after the end of the second *)
Definition runsT : list xsync :=
  [run 2 10 (q 1) (q 0); run 2 10 (q 1) (qd 999999 100000); run 2 4 (q 2) (qd 18999995 1000000)].
Definition setT : xset := set_of tagsA runsT.
Lemma setT_reach : reach tt setT.
Proof. apply set_reach; [vm_compute; reflexivity|]. intros s [<-|[<-|[<-|[]]]]; apply run_reach; vm_compute; reflexivity. Qed.
Lemma setT_distinct : distinct_starts (ss_signals setT). Proof. apply distinct_dec. vm_compute. reflexivity. Qed.
Lemma setT_pos : positive_rates setT. Proof. apply fullpos_dec. vm_compute. reflexivity. Qed.
Lemma setT_full : no_empty_run setT. Proof. apply fullpos_dec. vm_compute. reflexivity. Qed.
(** the first two only *)
Definition setT2 : xset := set_of tagsA (firstn 2 runsT).
Lemma setT2_reach : reach tt setT2.
Proof. apply set_reach; [vm_compute; reflexivity|]. intros s [<-|[<-|[]]]; apply run_reach; vm_compute; reflexivity. Qed.
Lemma setT2_distinct : distinct_starts (ss_signals setT2). Proof. apply distinct_dec. vm_compute. reflexivity. Qed.
Lemma setT2_pos : positive_rates setT2. Proof. apply fullpos_dec. vm_compute. reflexivity. Qed.

(** two channels, only the first one tagged *)
Definition tagsU : dict raw := [("E"%string, RInt 0)].
Definition setU : xset := set_of tagsU [run 2 10 (q 1) (q 0); run 2 5 (q 1) (q 20)].
Lemma setU_reach : reach tt setU.
Proof. apply set_reach; [vm_compute; reflexivity|]. intros s [<-|[<-|[]]]; apply run_reach; vm_compute; reflexivity. Qed.
Lemma setU_distinct : distinct_starts (ss_signals setU). Proof. apply distinct_dec. vm_compute. reflexivity. Qed.
Lemma setU_pos : positive_rates setU. Proof. apply fullpos_dec. vm_compute. reflexivity. Qed.
Lemma setU_full : no_empty_run setU. Proof. apply fullpos_dec. vm_compute. reflexivity. Qed.
Lemma setU_apart : forall r r', adjacent (ss_signals setU) r r' -> ~ follows r r'. Proof. apply apart_dec. vm_compute. reflexivity. Qed.
Definition setU2 : xset := set_of tagsU [run 2 10 (q 1) (q 0); run 2 5 (q 1) (q 10)].
Lemma setU2_reach : reach tt setU2.
Proof. apply set_reach; [vm_compute; reflexivity|]. intros s [<-|[<-|[]]]; apply run_reach; vm_compute; reflexivity. Qed.
Lemma setU2_distinct : distinct_starts (ss_signals setU2). Proof. apply distinct_dec. vm_compute. reflexivity. Qed.
Lemma setU2_pos : positive_rates setU2. Proof. apply fullpos_dec. vm_compute. reflexivity. Qed.
Lemma setU2_full : no_empty_run setU2. Proof. apply fullpos_dec. vm_compute. reflexivity. Qed.
Lemma setU2_exact : exact_gaps setU2. Proof. apply exact_dec. vm_compute. reflexivity. Qed.
