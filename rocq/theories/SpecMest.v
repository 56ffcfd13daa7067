(** Vocabulary of the M-estimate properties. *)
From Verif Require Import Base Arith MestModel.

(** [l'] lists the entries of [l] at the positions [rows] *)
Definition pick {T} (l : list T) (rows : list nat) (l' : list T) : Prop := Forall2 (fun i x => nth_error l i = Some x) rows l'.

(** [left] is what remains of [rows], in order, when the entries at the positions [iv] are rejected *)
Definition remain (rows : list nat) (iv : list Z) (left : list nat) : Prop :=
  StronglySorted lt left /\
  forall x, In x left <-> exists p, nth_error rows p = Some x /\ ~ In (Z.of_nat p) iv.

(** [iv] is the increasing list of the indices of an array of length [n] that are not [left] *)
Definition complement (n : nat) (left : list nat) (iv : list Z) : Prop :=
  StronglySorted Z.lt iv /\ forall i, In i iv <-> (0 <= i < Z.of_nat n)%Z /\ ~ In (Z.to_nat i) left.

(** legal index list for an array of length [n], without negative entries *)
Definition legal (n : nat) (iv : list Z) : Prop := forall i, In i iv -> (0 <= i < Z.of_nat n)%Z.

Section Steps.
Context {k : Kern} {St : Type} (o : opts k).

(** A sequence of estimation steps on the rows of [e] and [b]: [rows] are the
    rows given to the previous step, [iv] the positions it rejected among them.
    Each step works on the original rows that remain and starts from the previous
    estimate; [left] are the rows that remain after the last step. *)
Inductive steps (e : list (kE k)) (b : list (kB k)) :
  list nat -> option (kZ k) -> list Z -> list (option (wfun k St)) -> St -> option (kZ k) -> list nat -> St -> Prop :=
| steps_done rows z iv st left : remain rows iv left -> steps e b rows z iv [] st z left st
| steps_next rows z iv w ws st rows' e' b' z' iv' st' zf left stf :
    remain rows iv rows' -> rows' <> [] -> pick e rows' e' -> pick b rows' b' ->
    m_estimate o e' b' z w [] st = (Ok (z', iv'), st') ->
    steps e b rows' (Some z') iv' ws st' zf left stf ->
    steps e b rows z iv (w :: ws) st zf left stf.

(** One iteration of an M-estimate, number [it]: the weights are evaluated on the
    residual of the previous estimate [z] where the rows rejected so far are
    undefined; their weights are set to zero; the rows whose weight is below [eps]
    are the rejected ones. *)
Record iteration (wf : wfun k St) (e : list (kE k)) (b : list (kB k)) (it : nat) (z : kZ k) (iv : list Z) (st : St)
    (w' : option (list (kW k))) (z' : kZ k) (iv' : list Z) (st' : St) : Prop := {
  it_call : exists r w, legal (length r) iv /\ length r = length (k_resid k e b z) /\
    (forall n x, nth_error (k_resid k e b z) n = Some x ->
       (In (Z.of_nat n) iv -> nth_error r n = Some (k_nan k)) /\ (~ In (Z.of_nat n) iv -> nth_error r n = Some x)) /\
    wf it r e b iv st = (Ok w, st') /\
    match w, w' with
    | None, None => iv' = iv
    | Some w, Some w' =>
        legal (length w) iv /\ length w' = length w /\
        (forall n x, nth_error w n = Some x ->
           (In (Z.of_nat n) iv -> nth_error w' n = Some (k_zero k)) /\ (~ In (Z.of_nat n) iv -> nth_error w' n = Some x)) /\
        StronglySorted Z.lt iv' /\
        forall i, In i iv' <-> exists n x, i = Z.of_nat n /\ nth_error w' n = Some x /\ k_small k (o_eps o) x = true
    | _, _ => False
    end;
  it_solution : weights_fit (length e) w' = true /\ k_wlse k e b w' = Ok z'
}.

(** the weighted residual after an iteration *)
Definition after (e : list (kE k)) (b : list (kB k)) (w : option (list (kW k))) (z : kZ k) : num (kA k) := k_wres k (k_resid k e b z) w.

(** the relative change between two successive values is (is not) below [tol] *)
Definition settled (prev cur : num (kA k)) : Prop :=
  neqb (kA k) prev (nzero (kA k)) = false /\
  nltb (kA k) (nabs (kA k) (ndiv (kA k) (nsub (kA k) cur prev) prev)) (o_tol o) = true.

(** A run of [n] successive iterations, none of which settles; [v] is the last
    weighted residual, [None] at the beginning. *)
Inductive run (wf : wfun k St) (e : list (kE k)) (b : list (kB k)) (z0 : kZ k) (iv0 : list Z) (st0 : St) :
  nat -> kZ k -> list Z -> option (num (kA k)) -> St -> Prop :=
| run_start : run wf e b z0 iv0 st0 0 z0 iv0 None st0
| run_more n z iv v st w' z' iv' st' :
    run wf e b z0 iv0 st0 n z iv v st ->
    iteration wf e b n z iv st w' z' iv' st' ->
    match v with None => True | Some p => ~ settled p (after e b w' z') end ->
    run wf e b z0 iv0 st0 (S n) z' iv' (Some (after e b w' z')) st'.
End Steps.

(** A weight function that also records the list of rejected rows it is given. *)
Definition logged {k St} (wf : wfun k St) : wfun k (St * list (list Z)) :=
  fun it r e b iv '(st, log) => let '(x, st') := wf it r e b iv st in (x, (st', log ++ [iv])).

(** each list of rows includes the one before *)
Fixpoint growing (l : list (list Z)) : Prop :=
  match l with
  | a :: (b :: _) as l' => (forall i, In i a -> In i b) /\ growing l'
  | _ => True
  end.

(** the initial guess of output [i] *)
Definition guess {Z0} (init : option (list (option Z0))) (i : nat) (z0 : option Z0) : Prop :=
  match init with None => z0 = None | Some l => nth_error l i = Some z0 end.
(** the initial invalid indices of output [i] *)
Definition given (iv : ivarg) (i : nat) (l : list Z) : Prop :=
  match iv with
  | IvNone => l = []
  | IvFlat m => l = m
  | IvArray m => m = [] /\ l = []
  | IvEach [] => l = []
  | IvEach ll => nth_error ll i = Some l
  end.

