(** Common intervals of a merge. *)
From Coq Require Import QArith Qcanon.
From Verif Require Import Base BaseLemmas SliceLemmas Arith OrdLaws QcLemmas TagsModel SpecTags
  SyncModel SetModel SpecSet SetProofs SpecTime ExtractProofs.
Open Scope nat_scope.

Lemma pmax_lt (a b t : Qc) : (@pmax QA a b < t)%Qc <-> (a < t)%Qc /\ (b < t)%Qc.
Proof.
  destruct (pmax_max a b) as (H1 & H2 & H3). split.
  - intros H. split; [exact (Qcle_lt_trans _ _ _ H1 H)|exact (Qcle_lt_trans _ _ _ H2 H)].
  - intros [G1 G2]. destruct H3 as [->| ->]; assumption.
Qed.
Lemma pmin_gt (a b t : Qc) : (t < @pmin QA a b)%Qc <-> (t < a)%Qc /\ (t < b)%Qc.
Proof.
  destruct (pmin_min a b) as (H1 & H2 & H3). split.
  - intros H. split; [exact (Qclt_le_trans _ _ _ H H1)|exact (Qclt_le_trans _ _ _ H H2)].
  - intros [G1 G2]. destruct H3 as [->| ->]; assumption.
Qed.

Notation iv := (Qc * Qc)%type.
(** *** the recursion, as a relation *)
Fixpoint meets (d f : Qc) (rs : list iv) : Prop :=
  match rs with
  | [] => True
  | (a, b) :: rs' => (d < b)%Qc /\ (a < f)%Qc /\ meets (@pmax QA d a) (@pmin QA f b) rs'
  end.
Definition dmax (d : Qc) (rs : list iv) : Qc := fold_left (fun d r => @pmax QA d (fst r)) rs d.
Definition fmin (f : Qc) (rs : list iv) : Qc := fold_left (fun f r => @pmin QA f (snd r)) rs f.

Lemma leb_cases (x y : Qc) : (Qcleb x y = true /\ (x <= y)%Qc) \/ (Qcleb x y = false /\ (y < x)%Qc).
Proof.
  destruct (Qcleb x y) eqn:E; [left|right]; split; auto.
  - apply Qcleb_le, E.
  - apply Qcnot_le_lt. intros H. apply Qcleb_le in H. congruence.
Qed.

Definition by_start (x y : iv) : Prop := (fst x <= fst y)%Qc.

Definition common' := @common QA.
Lemma common_nil (d f : Qc) : common' d f [] = [(d, f)]. Proof. reflexivity. Qed.
Fixpoint loop (d f : Qc) (rest : list (list iv)) (ivs : list iv) : list iv :=
  match ivs with
  | [] => []
  | (dh, fh) :: ivs' =>
      if Qcleb fh d then loop d f rest ivs'
      else if Qcleb f dh then []
      else common' (@pmax QA d dh) (@pmin QA f fh) rest ++ loop d f rest ivs'
  end.
Lemma common_cons (d f : Qc) ivs rest : common' d f (ivs :: rest) = loop d f rest ivs.
Proof. unfold common'. simpl. induction ivs as [|[a b] ivs IH]; [reflexivity|]. simpl. rewrite IH. reflexivity. Qed.

Lemma common_In seqs : Forall (StronglySorted by_start) seqs -> forall (d f D F : Qc),
  In (D, F) (common' d f seqs) <->
  exists rs, Forall2 (fun ivs r => In r ivs) seqs rs /\ meets d f rs /\ D = dmax d rs /\ F = fmin f rs.
Proof.
  induction seqs as [|ivs rest IH]; intros Hs d f D F.
  - rewrite common_nil. simpl. split.
    + intros [E|[]]. injection E as -> ->. exists []. repeat split; constructor.
    + intros (rs & HF & _ & -> & ->). inversion HF; subst. left. reflexivity.
  - apply Forall_cons_iff in Hs as [Hiv Hs]. specialize (IH Hs). rewrite common_cons.
    assert (G : In (D, F) (loop d f rest ivs) <->
              exists r, In r ivs /\ (d < snd r)%Qc /\ (fst r < f)%Qc /\ In (D, F) (common' (@pmax QA d (fst r)) (@pmin QA f (snd r)) rest)).
    { clear IH Hs. induction Hiv as [|[a b] ivs Hiv IH Hall]; simpl; [split; [intros []|intros (r & [] & _)]|].
      destruct (leb_cases b d) as [[-> L]|[-> L]].
      - rewrite IH. split; [intros (r & Hr & G); exists r; auto|].
        intros (r & [<-|Hr] & G1 & G2); [|exists r; auto]. simpl in G1. destruct (Qclt_not_le _ _ G1 L).
      - destruct (leb_cases f a) as [[-> M]|[-> M]].
        + split; [intros []|]. intros (r & [<-|Hr] & _ & G2 & _); [destruct (Qclt_not_le _ _ G2 M)|].
          rewrite Forall_forall in Hall. specialize (Hall r Hr). unfold by_start in Hall. simpl in Hall.
          destruct (Qclt_not_le _ _ G2). exact (Qcle_trans _ _ _ M Hall).
        + rewrite in_app_iff, IH. split.
          * intros [H|(r & Hr & G)]; [exists (a, b); simpl; auto|exists r; auto].
          * intros (r & [<-|Hr] & G1 & G2 & G3); [left; exact G3|right; exists r; auto]. }
    rewrite G. split.
    + intros ([a b] & Hr & G1 & G2 & G3). apply IH in G3 as (rs & F1 & F2 & F3 & F4).
      exists ((a, b) :: rs). split; [constructor; assumption|]. simpl. auto.
    + intros (rs & F1 & F2 & F3 & F4). inversion F1 as [|? [a b] ? rs' Ha Hrs]; subst. simpl in F2.
      exists (a, b). split; [exact Ha|]. destruct F2 as (M1 & M2 & M3). split; [exact M1|]. split; [exact M2|].
      apply IH. exists rs'. auto.
Qed.

Lemma meets_iff rs : forall d f, meets d f rs <->
  (forall r, In r rs -> (d < snd r)%Qc /\ (fst r < f)%Qc) /\
  ForallOrdPairs (fun r r' => (fst r < snd r')%Qc /\ (fst r' < snd r)%Qc) rs.
Proof.
  induction rs as [|[a b] rs IH]; intros d f; simpl.
  - split; [intros _; split; [intros r []|constructor]|auto].
  - rewrite IH. split.
    + intros (M1 & M2 & M3 & M4). split.
      * intros r [<-|Hr]; [auto|]. destruct (M3 r Hr) as [G1 G2]. apply pmax_lt in G1. apply pmin_gt in G2. tauto.
      * constructor; [|exact M4]. apply Forall_forall. intros r Hr. destruct (M3 r Hr) as [G1 G2].
        apply pmax_lt in G1. apply pmin_gt in G2. simpl. tauto.
    + intros [M1 M2]. inversion M2 as [|? ? M3 M4]; subst. destruct (M1 (a, b) (or_introl eq_refl)) as [N1 N2].
      split; [exact N1|]. split; [exact N2|]. split; [|exact M4]. intros r Hr. destruct (M1 r (or_intror Hr)) as [G1 G2].
      rewrite Forall_forall in M3. destruct (M3 r Hr) as [G3 G4]. split; [apply pmax_lt; auto|apply pmin_gt; auto].
Qed.

Lemma dmax_spec rs : forall d, (d <= dmax d rs)%Qc /\ (forall r, In r rs -> (fst r <= dmax d rs)%Qc) /\
  (dmax d rs = d \/ exists r, In r rs /\ dmax d rs = fst r).
Proof.
  unfold dmax. induction rs as [|[a b] rs IH]; intros d; simpl.
  - split; [apply Qcle_refl|]. split; [intros r []|auto].
  - destruct (IH (@pmax QA d a)) as (H1 & H2 & H3). destruct (pmax_max d a) as (P1 & P2 & P3).
    split; [exact (Qcle_trans _ _ _ P1 H1)|]. split.
    + intros r [<-|Hr]; [exact (Qcle_trans _ _ _ P2 H1)|auto].
    + destruct H3 as [E|(r & Hr & E)]; [|right; exists r; auto].
      destruct P3 as [P3|P3]; [left|right; exists (a, b); split; [auto|]]; exact (eq_trans E P3).
Qed.
Lemma fmin_spec rs : forall f, (fmin f rs <= f)%Qc /\ (forall r, In r rs -> (fmin f rs <= snd r)%Qc) /\
  (fmin f rs = f \/ exists r, In r rs /\ fmin f rs = snd r).
Proof.
  unfold fmin. induction rs as [|[a b] rs IH]; intros d; simpl.
  - split; [apply Qcle_refl|]. split; [intros r []|auto].
  - destruct (IH (@pmin QA d b)) as (H1 & H2 & H3). destruct (pmin_min d b) as (P1 & P2 & P3).
    split; [exact (Qcle_trans _ _ _ H1 P1)|]. split.
    + intros r [<-|Hr]; [exact (Qcle_trans _ _ _ H1 P2)|auto].
    + destruct H3 as [E|(r & Hr & E)]; [|right; exists r; auto].
      destruct P3 as [P3|P3]; [left|right; exists (a, b); split; [auto|]]; exact (eq_trans E P3).
Qed.

(** *** order of the common intervals *)
Definition apart (x y : iv) : Prop := (snd x <= fst y)%Qc.
Lemma SS_app {B} (R : B -> B -> Prop) l1 l2 : StronglySorted R l1 -> StronglySorted R l2 ->
  (forall x y, In x l1 -> In y l2 -> R x y) -> StronglySorted R (l1 ++ l2).
Proof.
  intros H1 H2 H. induction H1 as [|x l1 H1 IH Hx]; [exact H2|]. simpl. constructor.
  - apply IH. intros; apply H; [right|]; assumption.
  - apply Forall_app. split; [exact Hx|]. apply Forall_forall. intros y Hy. apply H; [left; reflexivity|exact Hy].
Qed.

Lemma common_bounds seqs : forall d f x, In x (common' d f seqs) -> (d <= fst x)%Qc /\ (snd x <= f)%Qc.
Proof.
  induction seqs as [|ivs rest IH]; intros d f x.
  - rewrite common_nil. intros [<-|[]]. split; apply Qcle_refl.
  - rewrite common_cons. induction ivs as [|[a b] ivs IHi]; simpl; [intros []|].
    destruct (Qcleb b d); [exact IHi|]. destruct (Qcleb f a); [intros []|]. rewrite in_app_iff. intros [H|H]; [|auto].
    apply IH in H as [H1 H2]. apply pmax_le in H1. apply pmin_ge in H2. tauto.
Qed.
Lemma common_sorted seqs : Forall (StronglySorted apart) seqs -> forall d f, StronglySorted apart (common' d f seqs).
Proof.
  induction seqs as [|ivs rest IH]; intros Hs d f.
  - rewrite common_nil. repeat constructor.
  - apply Forall_cons_iff in Hs as [Hiv Hs]. specialize (IH Hs). rewrite common_cons.
    assert (G : forall ivs x, In x (loop d f rest ivs) -> exists r, In r ivs /\ (fst r <= fst x)%Qc /\ (snd x <= snd r)%Qc).
    { clear ivs Hiv. induction ivs as [|[a b] ivs IHi]; simpl; intros x; [intros []|].
      assert (G : In x (loop d f rest ivs) -> exists r, ((a, b) = r \/ In r ivs) /\ (fst r <= fst x)%Qc /\ (snd x <= snd r)%Qc).
      { intros H. destruct (IHi x H) as (r & Hr & G). exists r. auto. }
      destruct (Qcleb b d); [exact G|]. destruct (Qcleb f a); [intros []|]. rewrite in_app_iff. intros [H|H]; [|auto].
      apply common_bounds in H as [H1 H2]. apply pmax_le in H1. apply pmin_ge in H2. exists (a, b). simpl. tauto. }
    induction Hiv as [|[a b] ivs Hiv IHi Hall]; simpl; [constructor|].
    destruct (Qcleb b d); [exact IHi|]. destruct (Qcleb f a); [constructor|].
    apply SS_app; [apply IH|exact IHi|]. intros x y Hx Hy. apply common_bounds in Hx as [_ Hx]. apply pmin_ge in Hx as [_ Hx].
    destruct (G ivs y Hy) as (r & Hr & G1 & _). rewrite Forall_forall in Hall. specialize (Hall r Hr).
    unfold apart in *. simpl in *. exact (Qcle_trans _ _ _ Hx (Qcle_trans _ _ _ Hall G1)).
Qed.
