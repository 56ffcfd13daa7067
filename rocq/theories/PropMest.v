(** M-estimates: rejected rows, iterations, weight objects (C41-C45, C52, C76, C77). *)
From Coq Require Import QArith Qcanon.
From Verif Require Import Base BaseLemmas Arith MestModel SpecMest MestProofs MestRun WeightModel WeightProofs MestSamples.
Open Scope nat_scope.

(** ** C41: the returned indices refer to the original rows.
    For every output there is a sequence of estimation steps on the original rows
    ([steps], SpecMest.v); the returned list is the increasing list of the rows
    that do not remain after the last step. *)
Theorem C41_rejected_rows : forall (k : Kern) (St : Type) (o : opts k) outputs (b : list (kB k)) (ws : list (option (wfun k St))) init iv st rs st',
  (forall i l, given iv i l -> legal (length b) l) ->
  transfer_function o outputs b ws init iv st = (Ok rs, st') ->
  length rs = length outputs /\
  forall i e, nth_error outputs i = Some e ->
    length e = length b /\
    exists z iv' z0 iv0 st1 st2 left,
      nth_error rs i = Some (z, iv') /\ guess init i z0 /\ given iv i iv0 /\
      steps o e b (seq 0 (length b)) z0 iv0 ws st1 z left st2 /\
      complement (length b) left iv'.
Proof. exact transfer_function_spec. Qed.
Print Assumptions C41_rejected_rows.

(** three steps reject rows 3 and 6 after row 1 was declared invalid *)
Definition e1 : list Z := [1; 3; 3; 400; 5; 7; 37; 8]%Z.
Definition b1 : list Z := [1; 2; 3; 4; 5; 6; 7; 8]%Z.
Definition ws1 : list (option (wfun k0 (list nat))) := [None; Some (cut 200); Some (cut 10)].
Definition e2 : list Z := [4; 4; 5; 8; 9; 9; 10; 1]%Z.
Example C41_nonvacuous : (forall i l, given (IvFlat [1%Z]) i l -> legal (length b1) l) /\
  transfer_function o0 [e1; e2] b1 ws1 None (IvFlat [1%Z]) [] = (Ok [(Some 1%Z, [1; 3; 6]%Z); (Some 1%Z, [1]%Z)], [0; 1; 0; 1; 0; 1; 0; 1]).
Proof.
  split; [|vm_compute; reflexivity]. intros i l ->. intros j [<-|[]]. simpl. lia.
Qed.

(** Negative indices, which numpy accepts, are removed from the data but not
    reported: here row 2 is removed and row 0 is reported. *)
Theorem C41_negative_refuted : exists outputs b iv rs,
  transfer_function o0 outputs b [None : option (wfun k0 unit)] None iv tt = (Ok rs, tt) /\
  (* the estimate is the one without the last row *)
  rs = [(Some 5%Z, [0%Z])] /\
  transfer_function o0 outputs b [None : option (wfun k0 unit)] None (IvFlat [2%Z]) tt = (Ok [(Some 5%Z, [2%Z])], tt) /\
  transfer_function o0 outputs b [None : option (wfun k0 unit)] None (IvFlat [0%Z]) tt = (Ok [(Some 53%Z, [0%Z])], tt) /\
  outputs = [[5; 5; 101]%Z] /\ b = [1; 1; 1]%Z /\ iv = IvFlat [(-1)%Z].
Proof.
  exists [[5; 5; 101]%Z], [1; 1; 1]%Z, (IvFlat [(-1)%Z]). eexists.
  split; [vm_compute; reflexivity|]. repeat split; vm_compute; reflexivity.
Qed.
Print Assumptions C41_negative_refuted.

(** ** C42: rejections only grow within an estimate. [logged wf] behaves as [wf]
    and records the rejected rows it is told; whatever the outcome, the recorded
    lists and the returned one form an increasing sequence of legal index lists,
    and there are at most [maxit] calls. *)
Theorem C42_rejections_grow : forall (k : Kern) (St : Type) (o : opts k) (wf : wfun k St) e b z0 iv st r st' log,
  e <> [] -> k_small k (o_eps o) (k_zero k) = true -> legal (length e) iv ->
  m_estimate o e b (Some z0) (Some (logged wf)) iv (st, []) = (r, (st', log)) ->
  m_estimate o e b (Some z0) (Some wf) iv st = (r, st') /\
  growing (iv :: log ++ last_of r) /\ Forall (legal (length e)) (log ++ last_of r) /\
  (Z.of_nat (length log) <= Z.max 0 (o_maxit o))%Z.
Proof. exact m_estimate_grows. Qed.
Print Assumptions C42_rejections_grow.

Definition o1 : opts k0 := mkOpts k0 (ndiv QA (nofZ QA 1) (nofZ QA 100)) 100 (nofZ QA 0).
Example C42_nonvacuous : k_small k0 (o_eps o1) (k_zero k0) = true /\ legal (length e1) [1%Z] /\
  m_estimate o1 e1 b1 (Some 3%Z) (Some (logged (cut 20))) [1%Z] ([], []) = (Ok (1%Z, [1; 3; 6]%Z), ([0; 1; 2], [[1]; [1; 3]; [1; 3; 6]]%Z)).
Proof. split; [reflexivity|]. split; [intros j [<-|[]]; simpl; lia|]. vm_compute. reflexivity. Qed.

(** ** C43: the outcomes of an estimate *)
Theorem C43_converges : forall (k : Kern) (St : Type) (o : opts k) (wf : wfun k St) e b z0 iv0 st0 zf ivf stf,
  e <> [] -> legal (length e) iv0 ->
  m_estimate o e b (Some z0) (Some wf) iv0 st0 = (Ok (zf, ivf), stf) <->
  exists n z iv p st w', (Z.of_nat n < o_maxit o)%Z /\
    run o wf e b z0 iv0 st0 n z iv (Some p) st /\
    iteration o wf e b n z iv st w' zf ivf stf /\ settled o p (after e b w' zf).
Proof. exact m_estimate_ok. Qed.
Print Assumptions C43_converges.

Theorem C43_fails : forall (k : Kern) (St : Type) (o : opts k) (wf : wfun k St) e b z0 iv0 st0 stf,
  e <> [] -> legal (length e) iv0 ->
  (forall it r e b iv st, fst (wf it r e b iv st) <> Err NonConvergence) ->
  (forall e b w, k_wlse k e b w <> Err NonConvergence) ->
  m_estimate o e b (Some z0) (Some wf) iv0 st0 = (Err NonConvergence, stf) <->
  exists z iv v, run o wf e b z0 iv0 st0 (Z.to_nat (o_maxit o)) z iv v stf.
Proof. exact m_estimate_nonconv. Qed.
Print Assumptions C43_fails.

(** without weight function: least squares, the invalid rows having weight 0 *)
Theorem C43_least_squares : forall (k : Kern) (St : Type) (o : opts k) e b z0 iv (st : St) z iv' st', nn iv ->
  m_estimate (St := St) o e b z0 None iv st = (Ok (z, iv'), st') <->
  iv' = iv /\ st' = st /\
  ((iv = [] /\ k_wlse k e b None = Ok z) \/
   (iv <> [] /\ legal (length e) iv /\ exists w, length w = length e /\
      (forall n, n < length e -> (In (Z.of_nat n) iv -> nth_error w n = Some (k_zero k)) /\ (~ In (Z.of_nat n) iv -> nth_error w n = Some (k_one k))) /\
      k_wlse k e b (Some w) = Ok z)).
Proof. exact m_estimate_none. Qed.
Print Assumptions C43_least_squares.

Example C43_nonvacuous :
  (exists n z iv p st, (Z.of_nat n < 100)%Z /\ run o1 (cut 20) e1 b1 3%Z [1%Z] [] n z iv (Some p) st) /\
  m_estimate o1 e1 b1 (Some 3%Z) (Some (cut 20)) [1%Z] [] = (Ok (1%Z, [1; 3; 6]%Z), [0; 1; 2]) /\
  m_estimate (mkOpts k0 (nofZ QA 1) 1 (nofZ QA 0)) e1 b1 (Some 3%Z) (Some (cut 20)) [1%Z] [] = (Err NonConvergence, [0]) /\
  (forall e b w, k_wlse k0 e b w <> Err NonConvergence) /\
  m_estimate (St := unit) o0 e1 b1 None None [3; 6]%Z tt = (Ok (1%Z, [3; 6]%Z), tt).
Proof.
  assert (L : legal (length e1) [1%Z]) by (intros j [<-|[]]; simpl; lia).
  assert (H : m_estimate o1 e1 b1 (Some 3%Z) (Some (cut 20)) [1%Z] [] = (Ok (1%Z, [1; 3; 6]%Z), [0; 1; 2])) by (vm_compute; reflexivity).
  split; [|split; [exact H|split; [vm_compute; reflexivity|split; [|vm_compute; reflexivity]]]].
  - apply C43_converges in H as (n & z & iv & p & st & w' & Hn & Hr & _); [|discriminate|exact L]. exists n, z, iv, p, st. split; [exact Hn|exact Hr].
  - intros e b w. simpl. match goal with |- context [if ?c then _ else _] => destruct c end; discriminate.
Qed.

(** ** C44: estimates do not depend on the history of the weight objects *)
Theorem C44_history : forall (k : Kern) (K : WK k) (o : opts k) outputs b ws init iv (h : heap K),
  fst (transfer_function o outputs b (weightings K ws) init iv h) =
  fst (transfer_function o outputs b (weightings K ws) init iv (fresh K)).
Proof. intros. apply transfer_function_history. Qed.
Print Assumptions C44_history.

(** the same for every single step, so the steps of several chains sharing the
    objects can be interleaved *)
Theorem C44_step_history : forall (k : Kern) (K : WK k) (o : opts k) e b z0 w iv (h : heap K),
  fst (m_estimate o e b z0 (option_map (call K) w) iv h) = fst (m_estimate o e b z0 (option_map (call K) w) iv (fresh K)).
Proof. intros. apply m_estimate_history. Qed.
Print Assumptions C44_step_history.

(** a first estimation, aborted by maxit, leaves a state behind; the next one is
    not affected *)
Definition ws2 : list (option (weight (k := k0))) := [None; Some (BoundedInfluence (k := k0) 7 (Thomson 8 None) (nofZ QA 1) (nofZ QA 2))].
Definition o3 : opts k0 := mkOpts k0 (nofZ QA 0) 3 (nofZ QA 0).
Definition aborted : res _ * heap K0 := transfer_function o3 [e1] b1 (weightings K0 ws2) None IvNone (fresh K0).
Example C44_nonvacuous :
  fst aborted = Err NonConvergence /\
  match snd aborted 8 with Some (SThomson _ s) => Some (s : Z) | _ => None end = Some 588%Z /\
  fst (transfer_function o0 [e2] b1 (weightings K0 ws2) None IvNone (snd aborted)) = Ok [(Some 1%Z, [])].
Proof. split; [|split]; vm_compute; reflexivity. Qed.

(** ** C45: weight objects are not reentrant *)
(** A later call of one estimation uses the scale of another estimation that
    began meanwhile. *)
Theorem C45_thomson : forall (k : Kern) (K : WK k) id xi rA rB rA' eA eB bA bB ivA ivB ivA' (h : heap K),
  let w := Thomson (k := k) id xi in
  let hA := snd (call K w 0 rA eA bA ivA h) in
  let hB := snd (call K w 0 rB eB bB ivB hA) in
  let x := match xi with Some x => x | None => w_xi k K (length rA') end in
  forall n,
  fst (call K w (S n) rA' eA bA ivA' hA) = Ok (Some (w_thomson k K x (w_mad k K rA) rA')) /\
  fst (call K w (S n) rA' eA bA ivA' hB) = Ok (Some (w_thomson k K x (w_mad k K rB) rA')).
Proof. exact @thomson_shared. Qed.
Print Assumptions C45_thomson.

(** After a successful call of iteration [n], any call of another iteration than
    0 and [n+1] raises AssertionError, whoever makes it. *)
Theorem C45_bounded_influence : forall (k : Kern) (K : WK k) id inner lo up n m r1 r2 e1 e2 b1 b2 iv1 iv2 x (h h' : heap K),
  call K (BoundedInfluence id inner lo up) n r1 e1 b1 iv1 h = (Ok x, h') -> m <> 0 -> m <> S n ->
  call K (BoundedInfluence id inner lo up) m r2 e2 b2 iv2 h' = (Err AssertionError, h').
Proof. exact @bi_shared. Qed.
Print Assumptions C45_bounded_influence.

(** schedules A0 B0 A1 (Thomson: other weights than A0 A1) and A0 B0 B1 A1
    (BoundedInfluenceStep: AssertionError) *)
Example C45_schedules :
  let rA := map Some [10; 1; 1]%Z in let rB := map Some [1; 1; 1]%Z in
  let t := Thomson (k := k0) 0 None in
  let u := BoundedInfluence (k := k0) 1 (Huber (k := k0) (nofZ QA 1)) (nofZ QA 1) (nofZ QA 1) in
  let rA' := map Some [4; 1; 1]%Z in
  let go (w : weight) it r h := call K0 w it r [] [] [] h in
  fst (go t 1 rA' (snd (go t 0 rA (fresh K0)))) = Ok (Some [1; 1; 1]%Z) /\
  fst (go t 1 rA' (snd (go t 0 rB (snd (go t 0 rA (fresh K0)))))) = Ok (Some [0; 1; 1]%Z) /\
  fst (go u 1 rA (snd (go u 0 rA (fresh K0)))) = Ok (Some [1; 1; 1]%Z) /\
  fst (go u 1 rA (snd (go u 1 rB (snd (go u 0 rB (snd (go u 0 rA (fresh K0)))))))) = Err AssertionError.
Proof. vm_compute. repeat split; reflexivity. Qed.

(** ** C52: the schedule of bi_weights *)
Theorem C52_schedule : forall (k : Kern) (alpha lower upper : num (kA k)) (n : Z) (id : nat),
  let l := bi_weights alpha lower upper n id in
  let N := Z.to_nat n in
  length l = N + 2 /\
  nth_error l 0 = Some None /\
  (forall j, j < N -> exists i, nth_error l (1 + j) =
     Some (Some (BoundedInfluence i (Huber alpha) (nmul (kA k) lower (pow2 (kA k) (- Z.of_nat (N - 1 - j)))) (nmul (kA k) upper (pow2 (kA k) (Z.of_nat (N - 1 - j))))))) /\
  (exists i i', nth_error l (N + 1) = Some (Some (BoundedInfluence i (Thomson i' None) lower upper))) /\
  NoDup (concat (map (fun w => match w with Some w => ids w | None => [] end) l)).
Proof. exact @bi_weights_spec. Qed.
Print Assumptions C52_schedule.

(** the factors are the powers of two, in exact arithmetic *)
Theorem C52_factors : forall n : nat,
  pow2 QA (Z.of_nat n) = ZtoQc (2 ^ Z.of_nat n) /\ Qcmult (pow2 QA (- Z.of_nat n)) (ZtoQc (2 ^ Z.of_nat n)) = 1%Qc.
Proof. exact pow2_exact. Qed.
Print Assumptions C52_factors.

(** the sequence of the M-estimator: least squares, Huber, then Thomson with the scale of
    the first residuals it is given *)
Theorem C52_mest_stages : forall (k : Kern) (K : WK k) (alpha : num (kA k)) (id : nat), exists f g,
  weightings K (mest_weights alpha id) = [None; Some f; Some g] /\
  (forall it r e b iv h, f it r e b iv h = (Ok (Some (w_huber k K alpha (w_mad k K r) r)), h)) /\
  (forall r e b iv h, exists h', g 0 r e b iv h = (Ok (Some (w_thomson k K (w_xi k K (length r)) (w_mad k K r) r)), h') /\
     forall it r' e' b' iv', g (S it) r' e' b' iv' h' = (Ok (Some (w_thomson k K (w_xi k K (length r')) (w_mad k K r) r')), h')).
Proof. exact @mest_stages. Qed.
Print Assumptions C52_mest_stages.

Example C52_two_steps : exists h1 h2 h3,
  bi_weights (k := k0) (nofZ QA 1) (nofZ QA 3) (nofZ QA 5) 2 0 = [None; Some h1; Some h2; Some h3] /\
  (match h1 with BoundedInfluence _ (Huber _) lo up => Qc_eq_bool lo (Q2Qc (3 # 2)) && Qc_eq_bool up (Q2Qc 10) | _ => false end &&
   match h2 with BoundedInfluence _ (Huber _) lo up => Qc_eq_bool lo (Q2Qc 3) && Qc_eq_bool up (Q2Qc 5) | _ => false end &&
   match h3 with BoundedInfluence _ (Thomson _ None) lo up => Qc_eq_bool lo (Q2Qc 3) && Qc_eq_bool up (Q2Qc 5) | _ => false end)%bool = true.
Proof. do 3 eexists. split; [reflexivity|]. vm_compute. reflexivity. Qed.

(** ** C76: an integer array of invalid indices, although documented, is refused *)
Theorem C76_array_refused : forall (k : Kern) (St : Type) (o : opts k) outputs b (ws : list (option (wfun k St))) init l st,
  l <> [] -> exists x, transfer_function o outputs b ws init (IvArray l) st = (Err x, st).
Proof. exact array_refused. Qed.
Print Assumptions C76_array_refused.

Example C76_nonvacuous :
  transfer_function o0 [e1] b1 ws1 None (IvArray [1%Z]) [] = (Err TypeError, []) /\
  transfer_function o0 [e1] b1 ws1 None (IvFlat [1%Z]) [] = (Ok [(Some 1%Z, [1; 3; 6]%Z)], [0; 1; 0; 1]).
Proof. split; vm_compute; reflexivity. Qed.

(** ** C77: weighted estimates of exact data never converge *)
Theorem C77_exact_never_converges : forall (k : Kern) (St : Type) (o : opts k) (wf : wfun k St) e b z0 iv0 st0 zf ivf stf,
  e <> [] -> legal (length e) iv0 ->
  (forall w z, k_wlse k e b w = Ok z -> neqb (kA k) (after e b w z) (nzero (kA k)) = true) ->
  m_estimate o e b (Some z0) (Some wf) iv0 st0 <> (Ok (zf, ivf), stf).
Proof. exact exact_never. Qed.
Print Assumptions C77_exact_never_converges.

(** an exact relation between nonzero data: the estimate is 3 whatever the
    weights, and the estimation fails *)
Example C77_nonvacuous : let e := [3; 6; 9]%Z in let b := [1; 2; 3]%Z in
  (forall w z, k_wlse k0 e b w = Ok z -> neqb (kA k0) (after (k := k0) e b w z) (nzero (kA k0)) = true) /\
  m_estimate (mkOpts k0 (nofZ QA 1) 5 (nofZ QA 0)) e b (Some 3%Z) (Some (fun it r e b iv (st : unit) => (Ok None, st))) [] tt = (Err NonConvergence, tt) /\
  m_estimate (St := unit) o0 e b None None [] tt = (Ok (3%Z, []), tt).
Proof. split; [|split; vm_compute; reflexivity]. exact sample_exact. Qed.
