(** Model of src/razorback/mestimator.py: the control flow of the M-estimates
    and the bookkeeping of rejected rows. The numeric kernels (solving the
    normal equations, residuals, weighted norm) are parameters, grouped in the
    record [Kern]; WlseModel.v studies the solution itself.

    Weight functions may keep state between calls (see WeightModel.v), so the
    model threads a state [St] through every call, also through failing ones. *)
From Verif Require Import Base Arith.

Record Kern : Type := mkKern {
  kA : Arith;                    (* arithmetic of the convergence test *)
  kE : Type;                     (* an entry of [e] *)
  kB : Type;                     (* a row of [b] *)
  kZ : Type;                     (* an estimate *)
  kW : Type;                     (* a weight *)
  kR : Type;                     (* an entry of the residual *)
  k_wlse : list kE -> list kB -> option (list kW) -> res kZ;   (* wlse *)
  k_resid : list kE -> list kB -> kZ -> list kR;               (* e - b.dot(z) *)
  k_wres : list kR -> option (list kW) -> num kA;              (* max(abs(H(r).dot(diag(w).dot(r)))) *)
  k_nan : kR;
  k_zero : kW;
  k_one : kW;
  k_small : num kA -> kW -> bool                               (* isclose(0, w, 0, eps) *)
}.

(** the keyword options of [m_estimate] *)
Record opts (k : Kern) : Type := mkOpts { o_tol : num (kA k); o_maxit : Z; o_eps : num (kA k) }.
Arguments o_tol {k}. Arguments o_maxit {k}. Arguments o_eps {k}.

(** ** numpy index lists: Python integers, negative ones count from the end *)
Definition norm (n : nat) (j : Z) : Z := (if j <? 0 then j + Z.of_nat n else j)%Z.
Definition in_range (n : nat) (j : Z) : bool := ((- Z.of_nat n <=? j) && (j <? Z.of_nat n))%Z.
Definition designated (n : nat) (idx : list Z) (i : nat) : bool := existsb (fun j => (norm n j =? Z.of_nat i)%Z) idx.
Definition enum {T} (l : list T) : list (nat * T) := combine (seq 0 (length l)) l.

(** [arr[idx] = v] *)
Definition set_at {T} (l : list T) (idx : list Z) (v : T) : res (list T) :=
  _ <- check (forallb (in_range (length l)) idx) IndexError ;;
  Ok (map (fun p => if designated (length l) idx (fst p) then v else snd p) (enum l)).

(** [np.delete(arr, idx)] *)
Definition np_delete {T} (l : list T) (idx : list Z) : res (list T) :=
  _ <- check (forallb (in_range (length l)) idx) IndexError ;;
  Ok (map snd (filter (fun p => negb (designated (length l) idx (fst p))) (enum l))).

(** [np.nonzero] of a boolean array *)
Definition nonzero {T} (f : T -> bool) (l : list T) : list Z :=
  map (fun p => Z.of_nat (fst p)) (filter (fun p => f (snd p)) (enum l)).

(** mestimator.py:258-262 [eliminate] *)
Definition eliminate {T} (l : list T) (idx : list Z) : res (list T) :=
  match idx with [] => Ok l | _ => np_delete l idx end.

(** mestimator.py:120-126 [merge_invalid_indices] *)
Definition zmax (l : list Z) : Z := match l with [] => 0%Z | x :: l' => fold_left Z.max l' x end.
Definition arange (n : Z) : list Z := map Z.of_nat (seq 0 (Z.to_nat n)).
Definition merge_invalid_indices (l_ivid : list (list Z)) : res (list Z) :=
  let nmax := (fold_right Z.add 0 (map zmax l_ivid) + Z.of_nat (length l_ivid))%Z in
  keep <- foldM np_delete (arange nmax) l_ivid ;;
  np_delete (arange nmax) keep.

Section Estimate.
Context {k : Kern} {St : Type}.

(** [weight_func(it, residual, e, b, invalid_idx)], on a state *)
Definition wfun : Type := nat -> list (kR k) -> list (kE k) -> list (kB k) -> list Z -> St -> res (option (list (kW k))) * St.

(** [dotdiag] broadcasts a single weight and fails for other lengths
    (mestimator.py:270-281) *)
Definition weights_fit (n : nat) (w : option (list (kW k))) : bool :=
  match w with None => true | Some w => (length w =? n) || (length w =? 1) end.
Definition solve (e : list (kE k)) (b : list (kB k)) (w : option (list (kW k))) : res (kZ k) :=
  _ <- check (weights_fit (length e) w) ValueError ;; k_wlse k e b w.

(** mestimator.py:248-255 [_eval_weight] *)
Definition eval_weight (eps : num (kA k)) (wf : wfun) (it : nat) (residual : list (kR k)) (e : list (kE k)) (b : list (kB k))
    (invalid : list Z) (st : St) : res (option (list (kW k)) * list Z) * St :=
  match set_at residual invalid (k_nan k) with
  | Err x => (Err x, st)
  | Ok residual =>
      let '(r, st) := wf it residual e b invalid st in
      (w <- r ;;
       match w with
       | None => Ok (None, invalid)
       | Some w => w <- set_at w invalid (k_zero k) ;; Ok (Some w, nonzero (k_small k eps) w)
       end, st)
  end.

(** mestimator.py:236-241: the relative change is below [tol]; with a zero
    previous value numpy gives inf or nan, which is not *)
Definition converged (tol : num (kA k)) (prev : option (num (kA k))) (cur : num (kA k)) : bool :=
  match prev with
  | None => false
  | Some p => if neqb (kA k) p (nzero (kA k)) then false
              else nltb (kA k) (nabs (kA k) (ndiv (kA k) (nsub (kA k) cur p) p)) tol
  end.

(** mestimator.py:224-245: the iterations; [fuel] is what remains of [range(maxit)] *)
Fixpoint iterate (o : opts k) (wf : wfun) (e : list (kE k)) (b : list (kB k)) (fuel it : nat) (residual : list (kR k))
    (invalid : list Z) (prev : option (num (kA k))) (st : St) : res (kZ k * list Z) * St :=
  match fuel with
  | 0 => (Err NonConvergence, st)
  | S fuel =>
      let '(r, st) := eval_weight (o_eps o) wf it residual e b invalid st in
      match r with
      | Err x => (Err x, st)
      | Ok (w, invalid) =>
          match solve e b w with
          | Err x => (Err x, st)
          | Ok z =>
              let residual := k_resid k e b z in
              let cur := k_wres k residual w in
              if converged (o_tol o) prev cur then (Ok (z, invalid), st)
              else iterate o wf e b fuel (S it) residual invalid (Some cur) st
          end
      end
  end.

(** mestimator.py:177-245 [m_estimate]; [z0 = None] with a weight function:
    [b.dot(None)] raises TypeError *)
Definition m_estimate (o : opts k) (e : list (kE k)) (b : list (kB k)) (z0 : option (kZ k)) (wf : option wfun) (invalid : list Z) (st : St) :
    res (kZ k * list Z) * St :=
  match wf with
  | None =>
      (w <- match invalid with
            | [] => Ok None
            | _ => w <- set_at (repeat (k_one k) (length e)) invalid (k_zero k) ;; Ok (Some w)
            end ;;
       z <- solve e b w ;; Ok (z, invalid), st)
  | Some wf =>
      match z0 with
      | None => (Err TypeError, st)
      | Some z0 => iterate o wf e b (Z.to_nat (o_maxit o)) 0 (k_resid k e b z0) invalid None st
      end
  end.

(** mestimator.py:129-174 [chain_m_estimate], consumed completely: the last
    estimate and the list of rejected indices of all steps *)
Fixpoint chain (o : opts k) (e : list (kE k)) (b : list (kB k)) (weightings : list (option wfun)) (z : option (kZ k)) (ii : list Z) (st : St) :
    res (option (kZ k) * list (list Z)) * St :=
  match weightings with
  | [] => (Ok (z, [ii]), st)
  | w :: ws =>
      match (e <- eliminate e ii ;; b <- eliminate b ii ;;
             _ <- check (negb (length e =? 0)) ValueError ;; Ok (e, b)) with
      | Err x => (Err x, st)
      | Ok (e, b) =>
          let '(r, st) := m_estimate o e b z w [] st in
          match r with
          | Err x => (Err x, st)
          | Ok (z, ii') =>
              let '(r, st) := chain o e b ws (Some z) ii' st in
              (' (z, l) <- r ;; Ok (z, ii :: l), st)
          end
      end
  end.

(** what may be passed as [invalid_idx]: None, a list of integers, a numpy
    1d-array of integers, or one list per output *)
Inductive ivarg : Type :=
| IvNone
| IvFlat (l : list Z)
| IvArray (l : list Z)
| IvEach (ll : list (list Z)).

(** mestimator.py:91-101. A numpy integer has [__getitem__], so a 1d-array is
    not repeated for each output: its entries are taken as index lists and
    [len] of an integer fails in [eliminate]. *)
Definition iv_each (p : nat) (iv : ivarg) : res (list (res (list Z))) :=
  l <- match iv with
       | IvNone | IvFlat [] | IvArray [] | IvEach [] => Ok (repeat (Ok []) p)
       | IvFlat l => Ok (repeat (Ok l) p)
       | IvArray l => Ok (map (fun _ => Err TypeError) l)
       | IvEach ll => Ok (map Ok ll)
       end ;;
  _ <- check (negb (length l =? 0)) IndexError ;;
  _ <- check (length l =? p) AssertionError ;;
  Ok l.

(** mestimator.py:107-114: the loop over the outputs *)
Fixpoint each_output (o : opts k) (b : list (kB k)) (weights : list (option wfun)) (outputs : list (list (kE k)))
    (inits : list (option (kZ k))) (ivs : list (res (list Z))) (st : St) : res (list (option (kZ k) * list Z)) * St :=
  match outputs, inits, ivs with
  | e :: outputs, z0 :: inits, iv :: ivs =>
      match iv with
      | Err x => (Err x, st)
      | Ok iv =>
          let '(r, st) := chain o e b weights z0 iv st in
          match ('(z, l) <- r ;; m <- merge_invalid_indices l ;; Ok (z, m)) with
          | Err x => (Err x, st)
          | Ok res1 => let '(r, st) := each_output o b weights outputs inits ivs st in
                       (l <- r ;; Ok (res1 :: l), st)
          end
      end
  | _, _, _ => (Ok [], st)
  end.

(** mestimator.py:51-117 [transfer_function]; [b] is [inputs.T]. Returns the
    rows of [transfer] and the rejected indices, output by output. *)
Definition transfer_function (o : opts k) (outputs : list (list (kE k))) (b : list (kB k)) (weights : list (option wfun))
    (init : option (list (option (kZ k)))) (iv : ivarg) (st : St) : res (list (option (kZ k) * list Z)) * St :=
  match (ivs <- iv_each (length outputs) iv ;;
         _ <- check (forallb (fun e => length e =? length b) outputs) AssertionError ;;
         let inits := match init with None => repeat None (length outputs) | Some l => l end in
         _ <- check (length inits =? length outputs) AssertionError ;;
         Ok (ivs, inits)) with
  | Err x => (Err x, st)
  | Ok (ivs, inits) => each_output o b weights outputs inits ivs st
  end.

End Estimate.
Arguments wfun : clear implicits.
Arguments wfun k St : assert.
