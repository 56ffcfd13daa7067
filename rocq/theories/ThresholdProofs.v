(** The threshold below which the weight of a row rejects it, with real weights. *)
From Coq Require Import Reals Lra.
From Coquelicot Require Import Complex.
From Verif Require Import Base BaseLemmas Arith MestModel SpecMest MestProofs MestRun RobustModel BiModel SpecThreshold.
Open Scope R_scope.

Section Threshold.
Context {E B Z' : Type} {solve : list E -> list B -> option (list ext) -> res Z'} {residual : list E -> list B -> Z' -> list (option C)}
  {wnorm : list (option C) -> option (list ext) -> R}.
Notation k := (realK E B Z' solve residual wnorm).
Context {St : Type} (o : opts k) (wf : wfun k St).

Lemma small_at_most eps x : k_small k eps x = true <-> at_most eps x.
Proof.
  unfold at_most. simpl. destruct x as [x| | |]; try (split; [discriminate|intros (y & A & _); discriminate]).
  unfold Rleb. destruct (Rle_dec _ _) as [H|H].
  - split; [intros _; exists x; auto|reflexivity].
  - split; [discriminate|]. intros (y & A & A'). injection A as <-. contradiction.
Qed.

Lemma iteration_rejects e b it z iv st w' z' iv' st' : 0 <= o_eps o ->
  iteration o wf e b it z iv st w' z' iv' st' ->
  exists r w, wf it r e b iv st = (Ok w, st') /\ rejects (o_eps o) iv w iv'.
Proof.
  intros He [(r & w & Hl & _ & _ & Hw & H) _]. exists r, w. split; [exact Hw|]. destruct w as [w|], w' as [w'|]; try contradiction; [|exact H].
  destruct H as (Hlw & Hlen & Hv & Hs & Hi). split; [exact Hs|]. split.
  - intros i Hi'. apply Hi in Hi' as (n & x & -> & Hn & _). assert (L : (n < length w')%nat) by (apply nth_error_Some; congruence). rewrite Hlen in L. split; [lia|]. apply Nat2Z.inj_lt. exact L.
  - intros n x Hn. destruct (Hv n x Hn) as [Ha Hb]. rewrite Hi. split.
    + intros (m & y & Em & Hm & Hsm). apply Nat2Z.inj in Em as <-. destruct (in_dec Z.eq_dec (Z.of_nat n) iv) as [HI|HI]; [now left|right].
      rewrite (Hb HI) in Hm. injection Hm as <-. now apply small_at_most.
    + intros [HI|HI].
      * exists n, (Fin 0). split; [reflexivity|]. split; [exact (Ha HI)|]. apply small_at_most. exists 0. split; [reflexivity|]. now rewrite Rabs_R0.
      * destruct (in_dec Z.eq_dec (Z.of_nat n) iv) as [HJ|HJ].
        -- exists n, (Fin 0). split; [reflexivity|]. split; [exact (Ha HJ)|]. apply small_at_most. exists 0. split; [reflexivity|]. now rewrite Rabs_R0.
        -- exists n, x. split; [reflexivity|]. split; [exact (Hb HJ)|]. now apply small_at_most.
Qed.

Lemma last_rejects e b z0 iv0 st0 zf ivf stf : e <> [] -> legal (length e) iv0 -> 0 <= o_eps o ->
  m_estimate o e b (Some z0) (Some wf) iv0 st0 = (Ok (zf, ivf), stf) ->
  exists it r iv st w, wf it r e b iv st = (Ok w, stf) /\ rejects (o_eps o) iv w ivf.
Proof.
  intros He Hl Hp H. apply m_estimate_ok in H as (n & z & iv & p & st & w' & _ & _ & Hi & _); [|assumption..].
  apply iteration_rejects in Hi as (r & w & H1 & H2); [|assumption]. exists n, r, iv, st, w. auto.
Qed.
End Threshold.

Section Fixed.
Context {E B Z' : Type} {solve : list E -> list B -> option (list ext) -> res Z'} {residual : list E -> list B -> Z' -> list (option C)}
  {wnorm : list (option C) -> option (list ext) -> R}.
Notation k := (realK E B Z' solve residual wnorm).
Context (o : opts k) (w : list ext).
Let wf : wfun k unit := fun _ _ _ _ _ st => (Ok (Some w), st).

Lemma fixed_run e b z0 iv0 n z iv v st : 0 <= o_eps o -> run o wf e b z0 iv0 tt n z iv v st ->
  iv = iv0 \/ rejects (o_eps o) iv0 (Some w) iv.
Proof.
  intros He H. induction H as [|n z iv v st w' z' iv' st' _ IH Hi _]; [now left|right].
  apply iteration_rejects in Hi as (r & w0 & H1 & H2); [|assumption]. injection H1 as <- _. destruct IH as [->|IH]; [exact H2|].
  destruct IH as (_ & I2 & I3), H2 as (J1 & J2 & J3). split; [exact J1|]. split; [exact J2|]. intros n0 x Hn. rewrite (J3 _ _ Hn), (I3 _ _ Hn). tauto.
Qed.

Lemma fixed_rejects e b z0 iv0 zf ivf st : e <> [] -> legal (length e) iv0 -> 0 <= o_eps o ->
  m_estimate o e b (Some z0) (Some wf) iv0 tt = (Ok (zf, ivf), st) -> rejects (o_eps o) iv0 (Some w) ivf.
Proof.
  intros He Hl Hp H. apply m_estimate_ok in H as (n & z & iv & p & st' & w' & _ & Hr & Hi & _); [|assumption..].
  apply fixed_run in Hr; [|assumption]. apply iteration_rejects in Hi as (r & w0 & H1 & H2); [|assumption]. injection H1 as <- _.
  destruct Hr as [->|Hr]; [exact H2|].
  destruct Hr as (_ & I2 & I3), H2 as (J1 & J2 & J3). split; [exact J1|]. split; [exact J2|]. intros n0 x Hn. rewrite (J3 _ _ Hn), (I3 _ _ Hn). tauto.
Qed.
End Fixed.
