(** Vocabulary of the properties of bounded-influence weights. *)
From Coq Require Import Reals.
From Coquelicot Require Import Complex.
From Verif Require Import Base Arith MestModel SpecMest WeightModel RobustModel SpecRobust BiModel.
Open Scope R_scope.

(** successive calls of a weight function by one estimation, all successful: for
    the iterations [it], [it+1], ... the residual and the rejected rows, and the
    weights obtained *)
Inductive calls {k : Kern} {St : Type} (f : wfun k St) (e : list (kE k)) (b : list (kB k)) :
    nat -> list (list (kR k) * list Z) -> St -> list (list (kW k)) -> St -> Prop :=
| calls_nil it h : calls f e b it [] h [] h
| calls_cons it r iv l h w h1 ws h2 : f it r e b iv h = (Ok (Some w), h1) -> calls f e b (S it) l h1 ws h2 ->
    calls f e b it ((r, iv) :: l) h (w :: ws) h2.

(** what an estimation passes: residuals are nan exactly on the rejected rows, and
    do not all have the same modulus *)
Definition usable (N : nat) (c : list (option C) * list Z) : Prop :=
  length (fst c) = N /\ legal N (snd c) /\
  (forall j, (j < N)%nat -> (nth_error (fst c) j = Some None <-> In (Z.of_nat j) (snd c))) /\
  exists s, 0 < s /\ scale_of (fst c) s.

(** [u] are the numbers [v], zero on the rows [iv] *)
Definition masked (v : list ext) (iv : list Z) (u : list R) : Prop :=
  length u = length v /\ forall j, (j < length u)%nat ->
  (In (Z.of_nat j) iv -> nth j u 0 = 0) /\ (~ In (Z.of_nat j) iv -> nth_error v j = Some (Fin (nth j u 0))).

Fixpoint rsum (l : list R) : R := match l with [] => 0 | x :: l => x + rsum l end.

(** The weights [ws] of successive iterations from the weights [us] of the robust
    function. [prev] are the last weights and [hat] the last hat weights, all one at
    the start; [q prev qs] says that [qs] are the quadratic forms of the rows, for
    the normal matrix of the weights [prev]; [p] is the number of columns. *)
Inductive bi_run (lower khi p : R) (q : list R -> list R -> Prop) (N : nat) : list R -> list R -> list (list R) -> list (list R) -> Prop :=
| br_nil prev hat : bi_run lower khi p q N prev hat [] []
| br_cons prev hat u us qs hat' w ws :
    q prev qs -> length qs = N -> length hat' = N -> length w = N ->
    (forall j, (j < N)%nat -> exists f,
       hat_factor lower khi (rsum prev * (nth j prev 0 * nth j qs 0) / p) = Fin f /\
       nth j hat' 0 = nth j hat 0 * f /\ nth j w 0 = nth j u 0 * nth j hat' 0) ->
    bi_run lower khi p q N w hat' us ws -> bi_run lower khi p q N prev hat (u :: us) (w :: ws).

(** [N] numbers, none negative *)
Definition nonneg (N : nat) (w : list R) : Prop := length w = N /\ Forall (Rle 0) w.

Section Robust.
Variables (E B Z' : Type) (solve : list E -> list B -> option (list ext) -> res Z') (residual : list E -> list B -> Z' -> list (option C))
  (wnorm : list (option C) -> option (list ext) -> R).
Notation k := (realK E B Z' solve residual wnorm).

(** a Huber or Thomson object with a positive constant *)
Inductive robust : weight (k := k) -> Prop :=
| rb_huber alpha : 0 < alpha -> robust (Huber (k := k) alpha)
| rb_thomson i xi : match xi with Some x => 0 < x | None => True end -> robust (Thomson (k := k) i xi).
(** its weights; [s0] is the scale of the first residual *)
Definition robust_weights (w : weight (k := k)) (s0 : R) (r : list (option C)) : list ext :=
  match w with Huber alpha => huber alpha r | Thomson _ xi => thomson xi (Some s0) r | _ => [] end.
(** it is not the object [id] *)
Definition own (w : weight (k := k)) (id : nat) : Prop := match w with Thomson i _ => i <> id | _ => True end.
End Robust.
