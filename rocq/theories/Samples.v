(** Concrete signal sets used by the examples beside the theorems. *)
From Coq Require Import QArith Qcanon.
From Verif Require Import Base BaseLemmas Arith OrdLaws TagsModel SyncModel SetModel SpecSet SetProofs.
Open Scope Z_scope.

Definition is_ok {B} (r : res B) : bool := match r with Ok _ => true | Err _ => false end.
Definition get {B} (r : res B) (d : B) : B := match r with Ok x => x | Err _ => d end.
Definition err {B} (r : res B) : option exn := match r with Ok _ => None | Err e => Some e end.
Lemma err_err {B} (r : res B) e : err r = Some e -> r = Err e.
Proof. destruct r; simpl; congruence. Qed.
Lemma get_ok {B} (r : res B) d : is_ok r = true -> r = Ok (get r d).
Proof. destruct r; [reflexivity|discriminate]. Qed.

Definition q (z : Z) : num QA := ZtoQc z.
Definition qd (n : Z) (d : positive) : num QA := Q2Qc (n # d).
Notation xsync := (sync QA Z unit).
Notation xset := (@sigset QA Z unit).
Definition x0 : xset := mkSet [] (mkTags 0%nat []).
Definition y0 : xsync := mkSync [] [] (q 0) (q 0) 0%nat.

(** a run: channel [c] holds the samples 100*(c+1)+i *)
Definition chan_data (c n : nat) : list Z := map (fun i => 100 * (Z.of_nat c + 1) + Z.of_nat i) (seq 0 n).
Definition run (chans n : nat) (rate start : num QA) : xsync :=
  get (sync_new tt (map (fun c => chan_data c n) (seq 0 chans)) rate start None) y0.
Definition set_of (d : dict raw) (l : list xsync) : xset := get (set_new tt (TDict d) (map ASync l)) x0.

Lemma run_reach chans n rate start :
  is_ok (sync_new tt (map (fun c => chan_data c n) (seq 0 chans)) rate start None) = true ->
  reach_sync tt (run chans n rate start).
Proof. intros H. eapply rs_new. unfold run. apply get_ok. exact H. Qed.

Lemma set_reach d (l : list xsync) : is_ok (set_new tt (TDict d) (map ASync l)) = true ->
  (forall s, In s l -> reach_sync tt s) -> reach tt (set_of d l).
Proof.
  intros H Hl. eapply (r_new tt (TDict d) (map ASync l)).
  - constructor.
  - intros a Ha. apply in_map_iff in Ha as (s & <- & Hs). constructor. auto.
  - unfold set_of. apply get_ok. exact H.
Qed.

(** deciding the hypotheses of theorems by computation *)
Fixpoint fop_b {B} (f : B -> B -> bool) (l : list B) : bool :=
  match l with [] => true | x :: l' => forallb (f x) l' && fop_b f l' end.
Lemma fop_dec {B} (R : B -> B -> Prop) (f : B -> B -> bool) l : (forall x y, f x y = true -> R x y) ->
  fop_b f l = true -> ForallOrdPairs R l.
Proof.
  intros H. induction l as [|x l IH]; simpl; intros Hb; constructor; apply andb_true_iff in Hb as [H1 H2]; auto.
  rewrite forallb_forall in H1. apply Forall_forall. intros y Hy. apply H, H1, Hy.
Qed.
Definition distinct_b (l : list xsync) : bool :=
  fop_b (fun s s' => nltb QA (s_start s) (s_start s') || nltb QA (s_start s') (s_start s)) l.
Lemma distinct_dec l : distinct_b l = true -> distinct_starts l.
Proof. apply fop_dec. intros x y H. apply orb_true_iff in H. exact H. Qed.
Definition disjoint_b (l : list xsync) : bool :=
  fop_b (fun s s' => nleb QA (last_time s) (s_start s') || nleb QA (last_time s') (s_start s)) l.
Lemma disjoint_dec l : disjoint_b l = true -> disjoint_runs l.
Proof. apply fop_dec. intros x y H. apply orb_true_iff in H. exact H. Qed.
Lemma forward_dec (l : list xsync) : forallb (fun s => nleb QA (s_start s) (last_time s)) l = true ->
  forall s, In s l -> forward s.
Proof. intros H. rewrite forallb_forall in H. exact H. Qed.
Definition same_chan_b (l : list xsync) : bool :=
  match l with [] => true | s :: l' => forallb (fun s' => length (s_data s') =? length (s_data s))%nat l' end.
Lemma same_chan_dec l : same_chan_b l = true -> same_channels l.
Proof.
  destruct l as [|a l]; simpl; [intros _ s s' []|]. intros H. rewrite forallb_forall in H.
  assert (G : forall s, In s (a :: l) -> length (s_data s) = length (s_data a)).
  { intros s [<-|Hs]; [reflexivity|]. apply Nat.eqb_eq, H, Hs. }
  intros s s' Hs Hs'. rewrite (G s Hs), (G s' Hs'). reflexivity.
Qed.

(** what can be compared by computation *)
Definition times (X : xset) : list (Q * Q * nat) :=
  map (fun s : xsync => (this (s_start s), this (s_rate s), s_size s)) (ss_signals X).
Definition datas (X : xset) : list (list (list Z)) := map s_data (ss_signals X).
Definition tagl (X : xset) : list (string * list nat) := t_dict (ss_tags X).
Definition view (r : res xset) := match r with Ok X => Ok (times X, tagl X) | Err e => Err e end.
Definition viewd (r : res xset) := match r with Ok X => Ok (times X, tagl X, datas X) | Err e => Err e end.

(** three runs of two channels: [0,9] at 1 Hz, [20,29] at 1 Hz, [50,64] at 1/2 Hz *)
Definition tagsA : dict raw := [("E"%string, RInt 0); ("H"%string, RInt 1); ("EH"%string, RTuple [0; 1])].
Definition runsA : list xsync := [run 2 10 (q 1) (q 0); run 2 10 (q 1) (q 20); run 2 8 (qd 1 2) (q 50)].
Definition setA : xset := set_of tagsA runsA.
Lemma setA_ok : is_ok (set_new tt (TDict tagsA) (map ASync runsA)) = true.
Proof. vm_compute. reflexivity. Qed.
Lemma setA_reach : reach tt setA.
Proof.
  apply set_reach; [exact setA_ok|].
  intros s [<-|[<-|[<-|[]]]]; apply run_reach; vm_compute; reflexivity.
Qed.

(** one run [100,104] at 1 Hz, channels numbered the other way *)
Definition tagsB : dict raw := [("EH"%string, RTuple [1; 0]); ("H"%string, RInt 0); ("E"%string, RInt 1)].
Definition runsB : list xsync := [run 2 5 (q 1) (q 100)].
Definition setB : xset := set_of tagsB runsB.
Lemma setB_reach : reach tt setB.
Proof.
  apply set_reach; [vm_compute; reflexivity|].
  intros s [<-|[]]; apply run_reach; vm_compute; reflexivity.
Qed.

(** one run [200,203] at 1 Hz, same numbering as A *)
Definition setC : xset := set_of tagsA [run 2 4 (q 1) (q 200)].
Lemma setC_reach : reach tt setC.
Proof.
  apply set_reach; [vm_compute; reflexivity|].
  intros s [<-|[]]; apply run_reach; vm_compute; reflexivity.
Qed.
