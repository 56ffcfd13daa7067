(** Concrete inventories for the theorems about inventories. *)
From Coq Require Import QArith Qcanon.
From Verif Require Import Base BaseLemmas Arith OrdLaws QcLemmas TagsModel SpecTags SyncModel SetModel SpecSet SetProofs SpecSelect
  SpecTime SpecConsec InvModel SpecInv Samples PropSelect.
Open Scope nat_scope.

Definition recb (X : xset) : bool :=
  forallb (fun kv => negb (memb String.eqb (fst kv) special_names)) (t_dict (ss_tags X)) &&
  forallb (fun s : xsync => nltb QA (q 0) (s_rate s) && (2 <=? s_size s)) (ss_signals X).
Lemma rec_dec (X : xset) : reach tt X -> recb X = true -> recording tt X.
Proof.
  intros R H. apply andb_true_iff in H as [H1 H2]. split; [exact R|]. split; [apply plain_dec, H1|]. rewrite forallb_forall in H2.
  intros s Hs. specialize (H2 s Hs). apply andb_true_iff in H2 as [H2 H3]. split; [apply Qcltb_lt, H2|apply Nat.leb_le, H3].
Qed.

(** a member made of one run *)
Definition one (d : dict raw) (chans n : nat) (rate start : num QA) : xset := set_of d [run chans n rate start].
Lemma one_rec d chans n rate start : is_ok (set_new tt (TDict d) (map ASync [run chans n rate start])) = true ->
  is_ok (sync_new tt (map (fun c => chan_data c n) (seq 0 chans)) rate start None) = true -> recb (one d chans n rate start) = true ->
  recording tt (one d chans n rate start).
Proof. intros H1 H2 H3. apply rec_dec; [|exact H3]. apply set_reach; [exact H1|]. intros s [<-|[]]. apply run_reach, H2. Qed.

Definition tE : dict raw := [("E"%string, RInt 0)].
Definition tH : dict raw := [("H"%string, RInt 0)].
Definition tEH : dict raw := [("E"%string, RInt 0); ("H"%string, RInt 1)].
Definition tHE : dict raw := [("H"%string, RInt 0); ("E"%string, RInt 1)].
Definition tM : dict raw := [("E"%string, RInt 0); ("H"%string, RInt 1); ("M"%string, RTuple [0; 1]%Z)].
Definition tEF : dict raw := [("E"%string, RInt 0); ("F"%string, RInt 0)].

(** E on [0,9], H on [3,12], both on [13,17] with other channel numbers, both at 2 Hz from 40 *)
Definition invP : list xset := [one tE 1 10 (q 1) (q 0); one tH 1 10 (q 1) (q 3); one tHE 2 5 (q 1) (q 13); one tEH 2 8 (q 2) (q 40)].
Lemma invP_rec X : In X invP -> recording tt X.
Proof. intros [<-|[<-|[<-|[<-|[]]]]]; apply one_rec; vm_compute; reflexivity. Qed.
(** the tag M declared in one of two members *)
Definition invM : list xset := [one tM 2 10 (q 1) (q 0); one tEH 2 10 (q 1) (q 20)].
Lemma invM_rec X : In X invM -> recording tt X.
Proof. intros [<-|[<-|[]]]; apply one_rec; vm_compute; reflexivity. Qed.
(** two rates on the same span *)
Definition invR : list xset := [one tEH 2 10 (q 1) (q 0); one tEH 2 20 (q 2) (q 0)].
Lemma invR_rec X : In X invR -> recording tt X.
Proof. intros [<-|[<-|[]]]; apply one_rec; vm_compute; reflexivity. Qed.
(** two single tags on one channel *)
Definition invF : list xset := [one tEF 1 10 (q 1) (q 0)].
Lemma invF_rec X : In X invF -> recording tt X.
Proof. intros [<-|[]]; apply one_rec; vm_compute; reflexivity. Qed.
(** no tag at all *)
Definition invN : list xset := [one [] 1 10 (q 1) (q 0)].
Lemma invN_rec X : In X invN -> recording tt X.
Proof. intros [<-|[]]; apply one_rec; vm_compute; reflexivity. Qed.
