(** The rows rejected by an estimation (C42). *)
From Coq Require Import Reals Lra.
From Coquelicot Require Import Complex.
From Verif Require Import Base BaseLemmas Arith MestModel SpecMest MestProofs RobustModel BiModel SpecThreshold ThresholdProofs.
Open Scope R_scope.

(** ** C42, the threshold: the returned rows are those that the last call of the
    weight function was told and those to which it gives a finite weight of modulus
    at most [eps], the bound included *)
Theorem C42_threshold : forall (E B Z' St : Type) solve residual wnorm (o : opts (realK E B Z' solve residual wnorm))
    (wf : wfun (realK E B Z' solve residual wnorm) St) e b z0 iv0 st0 zf ivf stf,
  e <> [] -> legal (length e) iv0 -> 0 <= o_eps o ->
  m_estimate o e b (Some z0) (Some wf) iv0 st0 = (Ok (zf, ivf), stf) ->
  exists it r iv st w, wf it r e b iv st = (Ok w, stf) /\ rejects (o_eps o) iv w ivf.
Proof. intros E B Z' St solve residual wnorm o wf e b z0 iv0 st0 zf ivf stf. apply last_rejects. Qed.
Print Assumptions C42_threshold.

(** with the same weights at every iteration: the rows given and those of small weight *)
Theorem C42_fixed_weights : forall (E B Z' : Type) solve residual wnorm (o : opts (realK E B Z' solve residual wnorm)) w e b z0 iv0 zf ivf st,
  e <> [] -> legal (length e) iv0 -> 0 <= o_eps o ->
  m_estimate o e b (Some z0) (Some (fun _ _ _ _ _ (st : unit) => (Ok (Some w), st))) iv0 tt = (Ok (zf, ivf), st) ->
  rejects (o_eps o) iv0 (Some w) ivf.
Proof. intros E B Z' solve residual wnorm o w e b z0 iv0 zf ivf st. apply fixed_rejects. Qed.
Print Assumptions C42_fixed_weights.

(** five rows: the first one is rejected beforehand, the second one has the weight
    [eps], the third one twice that, the fourth one nan and the fifth one [- eps] *)
Example C42_threshold_example :
  let solve := fun (e b : list R) (w : option (list ext)) => Ok 1 in
  let residual := fun (e b : list R) (z : R) => map (fun x => Some (RtoC x)) e in
  let wnorm := fun (r : list (option C)) (w : option (list ext)) => 1 in
  let o := mkOpts (realK R R R solve residual wnorm) (1 / 100) 2 (1 / 1000) in
  let w := [Fin 1; Fin (1 / 1000); Fin (2 / 1000); NaN; Fin (- (1 / 1000))] in
  exists st, m_estimate o [1; 2; 3; 4; 5] [1; 1; 1; 1; 1] (Some 1) (Some (fun _ _ _ _ _ (st : unit) => (Ok (Some w), st))) [0%Z] tt = (Ok (1, [0; 1; 4]%Z), st).
Proof.
  intros solve residual wnorm o w. exists tt.
  assert (A : Rleb (Rabs (1 / 1000)) (1 / 1000) = true) by (unfold Rleb; destruct (Rle_dec _ _) as [H|H]; [reflexivity|destruct H; rewrite Rabs_pos_eq; lra]).
  assert (A0 : Rleb (Rabs 0) (1 / 1000) = true) by (unfold Rleb; destruct (Rle_dec _ _) as [H|H]; [reflexivity|destruct H; rewrite Rabs_R0; lra]).
  assert (A2 : Rleb (Rabs (2 / 1000)) (1 / 1000) = false) by (unfold Rleb; destruct (Rle_dec _ _) as [H|H]; [rewrite Rabs_pos_eq in H; lra|reflexivity]).
  assert (A4 : Rleb (Rabs (- (1 / 1000))) (1 / 1000) = true) by (rewrite Rabs_Ropp; exact A).
  assert (A3 : Rltb (Rabs ((1 - 1) / 1)) (1 / 100) = true)
    by (unfold Rltb; destruct (Rlt_dec _ _) as [H|H]; [reflexivity|destruct H; replace ((1 - 1) / 1) with 0 by field; rewrite Rabs_R0; lra]).
  assert (A5 : Reqb 1 0 = false) by (unfold Reqb; destruct (Req_EM_T 1 0) as [H|H]; [lra|reflexivity]).
  unfold m_estimate. change (Z.to_nat (o_maxit o)) with 2%nat.
  cbn -[Rleb Rltb Reqb Rabs Rdiv Rminus IZR Ropp Rmult Rplus].
  repeat (rewrite ?A, ?A0, ?A2, ?A4, ?A3, ?A5; cbn -[Rleb Rltb Reqb Rabs Rdiv Rminus IZR Ropp Rmult Rplus]).
  unfold wnorm. rewrite A5, A3. reflexivity.
Qed.
