(** Products and quotients of floating-point results by positive factors. *)
From Coq Require Import Reals Lra.
From Verif Require Import RobustModel.
Local Open Scope R_scope.

Lemma infinite_scale a x : 0 < a -> infinite (a * x) = infinite x.
Proof. intros H. unfold infinite. repeat destruct Rlt_dec; try reflexivity; exfalso; nra. Qed.
Lemma infinite_pos a : 0 < a -> infinite a = PInf.
Proof. intros H. unfold infinite. destruct Rlt_dec; [reflexivity|lra]. Qed.
Lemma infinite_neg a : 0 < a -> infinite (- a) = NInf.
Proof. intros H. unfold infinite. destruct Rlt_dec; [lra|]. destruct Rlt_dec; [reflexivity|lra]. Qed.
Lemma xmul_infinite a x : 0 < a -> xmul (Fin a) (infinite x) = infinite x.
Proof. intros H. unfold infinite. destruct Rlt_dec; cbn; [now apply infinite_pos|]. destruct Rlt_dec; cbn; [now apply infinite_neg|reflexivity]. Qed.
Lemma xmul_pinf a : 0 < a -> xmul (Fin a) PInf = PInf.
Proof. intros H. exact (infinite_pos a H). Qed.
Lemma xmul_ninf a : 0 < a -> xmul (Fin a) NInf = NInf.
Proof. intros H. exact (infinite_neg a H). Qed.
Lemma xdiv_mul a x y : 0 < a -> xdiv (xmul (Fin a) x) (Fin y) = xmul (Fin a) (xdiv x (Fin y)).
Proof.
  intros H. destruct x as [x| | |].
  - change (xmul (Fin a) (Fin x)) with (Fin (a * x)). unfold xdiv. destruct (Req_EM_T y 0).
    + rewrite xmul_infinite, infinite_scale by exact H. reflexivity.
    + cbn. f_equal. field. assumption.
  - rewrite (xmul_pinf a H). unfold xdiv. destruct (Req_EM_T y 0); [rewrite (xmul_pinf a H)|rewrite (xmul_infinite a _ H)]; reflexivity.
  - rewrite (xmul_ninf a H). unfold xdiv. destruct (Req_EM_T y 0); [rewrite (xmul_ninf a H)|rewrite (xmul_infinite a _ H)]; reflexivity.
  - reflexivity.
Qed.
Lemma xmul_mul a b x s : 0 < a -> 0 < b -> xmul (xmul (Fin a) x) (Fin (s / b)) = xmul (Fin (a / b)) (xmul x (Fin s)).
Proof.
  intros Ha Hb. assert (Hi : 0 < / b) by now apply Rinv_0_lt_compat. assert (Hab : 0 < a / b) by (apply Rmult_lt_0_compat; assumption).
  assert (S : infinite (s / b) = infinite s) by (unfold Rdiv; rewrite Rmult_comm; now apply infinite_scale).
  assert (S' : infinite (- (s / b)) = infinite (- s)) by (replace (- (s / b)) with (/ b * - s) by (unfold Rdiv; ring); now apply infinite_scale).
  destruct x as [x| | |].
  - cbn. f_equal. field. lra.
  - rewrite (xmul_pinf a Ha). change (xmul PInf (Fin s)) with (infinite s). rewrite xmul_infinite by exact Hab. exact S.
  - rewrite (xmul_ninf a Ha). change (xmul NInf (Fin s)) with (infinite (- s)). rewrite xmul_infinite by exact Hab. exact S'.
  - reflexivity.
Qed.
