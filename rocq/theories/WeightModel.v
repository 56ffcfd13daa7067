(** Model of the weight objects of src/razorback/weights.py as stateful weight
    functions for MestModel.v. The formulas are parameters, grouped in the record
    [WK]; RobustModel.v and BiModel.v study them over the real numbers. *)
From Verif Require Import Base Arith MestModel.

(** What BoundedInfluenceStep keeps in [_prev] (weights.py:90-130): the last
    iteration, its weights ([None] for the initial [1.]), their trace, the hat
    weights ([None] for the initial [1.]). The in-place zeroing of the returned
    array by _eval_weight (mestimator.py:253) also reaches the stored weights;
    the weights of these rows are already [0 * hat], so it is not modelled. *)
Record biprev (W H T : Type) : Type := mkBi { bi_it : Z; bi_weight : option W; bi_trace : T; bi_hat : option H }.
Arguments mkBi {W H T}. Arguments bi_it {W H T}. Arguments bi_weight {W H T}. Arguments bi_trace {W H T}. Arguments bi_hat {W H T}.

Record WK (k : Kern) : Type := mkWK {
  wScale : Type;
  w_mad : list (kR k) -> wScale;                                              (* mad_scale(vnorm(residual), True) *)
  w_huber : num (kA k) -> wScale -> list (kR k) -> list (kW k);               (* weights.py:53-57 *)
  w_xi : nat -> num (kA k);                                                   (* weights.py:73-74 *)
  w_thomson : num (kA k) -> wScale -> list (kR k) -> list (kW k);             (* weights.py:80-81 *)
  wHat : Type;
  wTrace : Type;
  w_rows : nat -> wTrace;                                                     (* len(b) *)
  w_bi : num (kA k) -> num (kA k) -> list (kB k) -> biprev (list (kW k)) wHat wTrace -> list (kW k) ->
         res (list (kW k) * wTrace * wHat)                                    (* weights.py:116-126 *)
}.

(** [2**i] *)
Definition pow2 (A : Arith) (i : Z) : num A :=
  if (0 <=? i)%Z then nofZ A (2 ^ i) else ndiv A (n1 A) (nofZ A (2 ^ (- i))).

Section Weights.
Context {k : Kern} (K : WK k).

(** the private dictionaries of the objects, by object *)
Inductive wstate : Type :=
| SThomson (scale : wScale k K)
| SBi (p : biprev (list (kW k)) (wHat k K) (wTrace k K)).
Definition heap : Type := nat -> option wstate.
Definition hset (h : heap) (i : nat) (s : wstate) : heap := fun j => if j =? i then Some s else h j.
(** freshly built objects have empty dictionaries (weights.py:64, 94) *)
Definition fresh : heap := fun _ => None.

(** the weight objects; [Pure] stands for any function without state *)
Inductive weight : Type :=
| Pure (f : nat -> list (kR k) -> list (kE k) -> list (kB k) -> list Z -> res (option (list (kW k))))
| Huber (alpha : num (kA k))
| Thomson (id : nat) (xi : option (num (kA k)))
| BoundedInfluence (id : nat) (inner : weight) (lower khi : num (kA k)).

(** the objects a weight consists of *)
Fixpoint ids (w : weight) : list nat :=
  match w with
  | Pure _ | Huber _ => []
  | Thomson id _ => [id]
  | BoundedInfluence id inner _ _ => id :: ids inner
  end.

(** weights.py:52-57, 71-82, 102-129 [__call__] *)
Fixpoint call (w : weight) : wfun k heap :=
  fun it residual e b invalid h =>
  match w with
  | Pure f => (f it residual e b invalid, h)
  | Huber alpha => (Ok (Some (w_huber k K alpha (w_mad k K residual) residual)), h)
  | Thomson id xi =>
      let xi := match xi with Some x => x | None => w_xi k K (length residual) end in
      match it with
      | 0 => let s := w_mad k K residual in (Ok (Some (w_thomson k K xi s residual)), hset h id (SThomson s))
      | _ => match h id with
             | Some (SThomson s) => (Ok (Some (w_thomson k K xi s residual)), h)
             | _ => (Err KeyError, h)
             end
      end
  | BoundedInfluence id inner lower khi =>
      let h := match it with
               | 0 => hset h id (SBi (mkBi (-1) None (w_rows k K (length b)) None))
               | _ => h
               end in
      match h id with
      | Some (SBi p) =>
          if (Z.of_nat it =? 1 + bi_it p)%Z then
            let '(r, h) := call inner it residual e b invalid h in
            match (w <- r ;; w <- of_option TypeError w ;; w <- set_at w invalid (k_zero k) ;; w_bi k K lower khi b p w) with
            | Err x => (Err x, h)
            | Ok (biw, tr, hat) => (Ok (Some biw), hset h id (SBi (mkBi (Z.of_nat it) (Some biw) tr (Some hat))))
            end
          else (Err AssertionError, h)
      | _ => (Err AssertionError, h)
      end
  end.

(** a sequence of weights for [transfer_function], [None] for least squares *)
Definition weightings (ws : list (option weight)) : list (option (wfun k heap)) := map (option_map call) ws.

(** weights.py:132-147 [bi_weights], after the computation of the thresholds from
    the rejection probability; [alpha] is the default of Huber; the objects are
    new, numbered from [id]. *)
Definition bi_weights (alpha lower upper : num (kA k)) (n_step : Z) (id : nat) : list (option weight) :=
  let res := map (fun i => Some (BoundedInfluence (id + i) (Huber alpha)
                    (nmul (kA k) lower (pow2 (kA k) (- Z.of_nat i))) (nmul (kA k) upper (pow2 (kA k) (Z.of_nat i)))))
                 (seq 0 (Z.to_nat n_step)) in
  let n := Z.to_nat n_step in
  (None :: rev res) ++ [Some (BoundedInfluence (id + n) (Thomson (id + n + 1) None) lower upper)].

(** weights.py:85 [mest_weights]: one Thomson object for the whole process *)
Definition mest_weights (alpha : num (kA k)) (id : nat) : list (option weight) := [None; Some (Huber alpha); Some (Thomson id None)].

End Weights.
Arguments Pure {k}. Arguments Huber {k}. Arguments Thomson {k}. Arguments BoundedInfluence {k}.
