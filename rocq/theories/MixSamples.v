(** Example recordings with combined channels: one electric and two magnetic channels;
    then with the magnetic sensors turned by a right angle and three times the first
    magnetic channel added to the electric one. *)
From Coq Require Import Reals Lra Lia.
From Coquelicot Require Import Complex.
From Verif Require Import Base BaseLemmas Arith TagsModel SyncModel SetModel FourierModel MestModel WeightModel RobustModel BiModel FullModel UtilsModel SpecUtils WholeModel SpecWhole SpecRemote
  SpecMixed WholeSamples.
Local Open Scope R_scope.

Definition pair_of (ys : list (list R)) : recordings :=
  mkSet [run_of ys [unit_cal; unit_cal; unit_cal]] (mkTags 3 [("E", [0%nat]); ("B", [1%nat; 2%nat])]%string).
Definition yC : list R := [0; 0; 0; 0; 1; 0; -1; 0].
Definition pair_set : recordings := pair_of [yE; yB; yC].
Definition turned_set : recordings := pair_of [[7; 0; -7; 0; 1; 0; -1; 0]; [0; 0; 0; 0; -1; 0; 1; 0]; yB].

Definition turn_all (c d : nat) : C :=
  match c, d with
  | 0%nat, 0%nat => RtoC 1 | 0%nat, 1%nat => RtoC 3
  | 1%nat, 2%nat => RtoC (-1) | 2%nat, 1%nat => RtoC 1
  | _, _ => RtoC 0
  end.
Definition turn (i j : nat) : C := match i, j with 0%nat, 1%nat => RtoC (-1) | 1%nat, 0%nat => RtoC 1 | _, _ => RtoC 0 end.
Definition back (i j : nat) : C := match i, j with 0%nat, 1%nat => RtoC 1 | 1%nat, 0%nat => RtoC (-1) | _, _ => RtoC 0 end.
Definition added (i j : nat) : C := match j with 0%nat => RtoC 3 | _ => RtoC 0 end.

Ltac complex := unfold Cdiv, Cinv, Cminus, Cplus, Copp, Cmult, Cconj, RtoC; cbn [fst snd].

Ltac samples :=
  intros t x; do 8 (destruct t as [|t]; [cbn [nth_error yB]; intros [= <-]; cbv [rsum map seq fold_right nth yE yB yC]; lra|]);
  destruct t; discriminate.

Lemma turned_mixed f : recordings_mixed f 3 turn_all pair_set turned_set.
Proof.
  split; [reflexivity|]. constructor; [|constructor].
  do 6 (split; [reflexivity|]). split.
  { exists 8%nat. intros y H. cbn in H. repeat (destruct H as [<-|H]; [reflexivity|]). destruct H. }
  assert (N1 : RtoC 1 <> RtoC 0) by (intros H; injection H; lra).
  assert (K : forall c k, nth_error [unit_cal; unit_cal; unit_cal] c = Some k -> k f = Ok (Some (RtoC 1)) /\ RtoC 1 <> RtoC 0).
  { intros [|[|[|c]]] k; cbn [nth_error]; try (destruct c; discriminate); intros [= <-]; split; (reflexivity || assumption). }
  exists (fun _ => RtoC 1), (fun _ => RtoC 1). split; [exact K|]. split; [exact K|].
  assert (M : forall y (m : nat -> R) c,
    (forall d, (d < 3)%nat -> RtoC (m d) = turn_all c d) ->
    (forall t x, nth_error y t = Some x -> x = rsum 3 (fun d => m d * nth t (nth d [yE; yB; yC] []) 0)) ->
    exists m : nat -> R, (forall t x, nth_error y t = Some x -> x = rsum 3 (fun d => m d * nth t (nth d [yE; yB; yC] []) 0)) /\
      forall d, (d < 3)%nat -> Cdiv (RtoC (m d)) (RtoC 1) = Cdiv (turn_all c d) (RtoC 1)).
  { intros y m c H1 H2. exists m. split; [exact H2|]. intros d Hd. rewrite (H1 d Hd). reflexivity. }
  intros [|[|[|c]]] y; cbn [nth_error s_data run_of turned_set pair_of ss_signals]; try (destruct c; discriminate); intros [= <-].
  - apply (M _ (fun d => match d with 0%nat => 1 | 1%nat => 3 | _ => 0 end)).
    + intros [|[|[|d]]] Hd; reflexivity || lia.
    + samples.
  - apply (M _ (fun d => match d with 2%nat => -1 | _ => 0 end)).
    + intros [|[|[|d]]] Hd; reflexivity || lia.
    + samples.
  - apply (M _ (fun d => match d with 1%nat => 1 | _ => 0 end)).
    + intros [|[|[|d]]] Hd; reflexivity || lia.
    + samples.
Qed.

(** the coefficients of the first recordings *)
Definition pairc : list (list C) := [[RtoC 1; RtoC 1]; [RtoC 2; RtoC 0]; [RtoC 0; RtoC 1]].
Lemma pair_coeffs : coefficients one_period pair_set 1 = Ok (pairc, ([2%nat], [4%nat], [4%nat])).
Proof.
  change (coefficients one_period pair_set 1) with (coefficients one_period (set_of [yE; yB; yC] [unit_cal; unit_cal; unit_cal]) 1).
  unfold yE, yB, yC, pairc. rewrite three_coeffs. unfold RtoC. repeat (f_equal; try lra).
Qed.
Ltac psums := cbv [correlation combination noise csum channel at_window pairc List.length List.map List.seq fold_right nth];
  unfold Cminus, Cplus, Copp, Cmult, Cconj, RtoC; cbn [fst snd].
Lemma pair_recorded l : (forall c, In c l -> (c < 3)%nat) -> recorded pairc 2 l.
Proof.
  intros H c Hc. specialize (H c Hc). destruct c as [|[|[|c]]]; [| | |lia]; eexists; split; reflexivity.
Qed.
Lemma pair_separate : separate pairc 2 [1%nat; 2%nat].
Proof.
  intros v H j Hj. pose proof (H 0%nat ltac:(lia)) as H0. pose proof (H 1%nat ltac:(lia)) as H1. revert H0 H1. psums.
  destruct j as [|[|j]]; [| |cbn in Hj; lia].
  all: destruct (v 0%nat) as [x y]; destruct (v 1%nat) as [x' y']; cbn [fst snd]; intros H0 H1; injection H0 as A1 A2; injection H1 as B1 B2; f_equal; lra.
Qed.
Lemma pair_related : related pairc 2 [0%nat] [1%nat; 2%nat] [1%nat; 2%nat] [[RtoC (1 / 2); RtoC 1]].
Proof.
  split; [split; [reflexivity|repeat constructor]|]. intros [|i] Hi; [|cbn in Hi; lia]. intros [|[|k]] Hk; [| |cbn in Hk; lia]; psums; f_equal; lra.
Qed.

(** the hypotheses on the combinations *)
Ltac entries := cbv [combines sum_of csum List.length List.map List.seq fold_right nth turn_all turn back added Nat.eqb];
  unfold Cplus, Cmult, RtoC; cbn [fst snd].
Lemma turn_invertible : invertible 2 turn.
Proof. exists back. intros [|[|i]] [|[|j]] Hi Hj; try lia; entries; f_equal; lra. Qed.
Lemma turn_inputs : inputs_mixed 3 turn_all [1%nat; 2%nat] turn.
Proof.
  intros [|[|i]] ch; cbn [nth_error]; [intros [= <-]|intros [= <-]|destruct i; discriminate]; intros x; entries; f_equal; lra.
Qed.
Lemma turn_outputs : outputs_mixed 3 turn_all [0%nat] [1%nat; 2%nat] (fun _ => RtoC 1) added.
Proof.
  intros [|i] ch; cbn [nth_error]; [intros [= <-]|destruct i; discriminate]; intros x; entries; f_equal; lra.
Qed.
(** there is one table for the turned recordings *)
Lemma turned_table z' : solves 1 2 turn (fun _ => RtoC 1) added [[RtoC (1 / 2); RtoC 1]] z' -> z' = [[RtoC (-1); RtoC (7 / 2)]].
Proof.
  intros (_ & (L & F) & H). destruct z' as [|row [|]]; try discriminate. inversion F as [|? ? L' _]; subst.
  destruct row as [|a [|b [|]]]; try discriminate. pose proof (H 0%nat 0%nat ltac:(lia) ltac:(lia)) as H0. pose proof (H 0%nat 1%nat ltac:(lia) ltac:(lia)) as H1.
  revert H0 H1. unfold at_ij. entries. destruct a as [a1 a2]. destruct b as [b1 b2]. cbn [fst snd]. intros H0 H1.
  injection H0 as A1 A2. injection H1 as B1 B2. repeat (f_equal; try lra).
Qed.

(** ** A remote channel with the opposite sign and another gain *)
Definition flipped_set : recordings := set_of [yE; yB; [-3; 0; 3; 0; -3; 0; 3; 0]] [unit_cal; unit_cal; unit_cal].
Definition flip_all (c d : nat) : C :=
  match c, d with 0%nat, 0%nat => RtoC 1 | 1%nat, 1%nat => RtoC 1 | 2%nat, 2%nat => RtoC (-3) | _, _ => RtoC 0 end.
Definition flip (i j : nat) : C := RtoC (-3).
Lemma flipped_mixed f : recordings_mixed f 3 flip_all plain_set flipped_set.
Proof.
  split; [reflexivity|]. constructor; [|constructor].
  do 6 (split; [reflexivity|]). split.
  { exists 8%nat. intros y H. cbn in H. repeat (destruct H as [<-|H]; [reflexivity|]). destruct H. }
  assert (N1 : RtoC 1 <> RtoC 0) by (intros H; injection H; lra).
  assert (K : forall c k, nth_error [unit_cal; unit_cal; unit_cal] c = Some k -> k f = Ok (Some (RtoC 1)) /\ RtoC 1 <> RtoC 0).
  { intros [|[|[|c]]] k; cbn [nth_error]; try (destruct c; discriminate); intros [= <-]; split; (reflexivity || assumption). }
  exists (fun _ => RtoC 1), (fun _ => RtoC 1). split; [exact K|]. split; [exact K|].
  intros [|[|[|c]]] y; cbn [nth_error s_data run_of flipped_set set_of ss_signals plain_set]; try (destruct c; discriminate); intros [= <-].
  - exists (fun d => match d with 0%nat => 1 | _ => 0 end). split; [samples|].
    intros [|[|[|d]]] Hd; reflexivity || lia.
  - exists (fun d => match d with 1%nat => 1 | _ => 0 end). split; [samples|].
    intros [|[|[|d]]] Hd; reflexivity || lia.
  - exists (fun d => match d with 2%nat => -3 | _ => 0 end). split; [samples|].
    intros [|[|[|d]]] Hd; reflexivity || lia.
Qed.
Ltac fentries := cbv [combines sum_of csum List.length List.map List.seq fold_right nth flip_all flip Nat.eqb];
  unfold Cplus, Cmult, RtoC; cbn [fst snd].
Lemma flip_invertible : invertible 1 flip.
Proof. exists (fun _ _ => RtoC (- (1 / 3))). intros [|i] [|j] Hi Hj; try lia. fentries. f_equal; lra. Qed.
Lemma flip_inputs : inputs_mixed 3 flip_all [2%nat] flip.
Proof. intros [|i] ch; cbn [nth_error]; [intros [= <-]|destruct i; discriminate]; intros x; fentries; f_equal; lra. Qed.
Lemma flip_kept c : (c < 2)%nat -> kept 3 flip_all [c].
Proof. intros H ch [<-|[]]. destruct c as [|[|c]]; [| |lia]; intros x; fentries; [destruct (x 0%nat)|destruct (x 1%nat)]; cbn [fst snd]; f_equal; lra. Qed.
