(** Model of the options of the estimator as a Python dictionary: src/razorback/utils.py:166,
    203-206, 236-237 and 260-261, with the calls that receive them (mestimator.py:51-56, 111,
    129-133, 160, 177-180, utils.py:395). *)
From Coq Require Import Reals.
From Coquelicot Require Import Complex.
From Verif Require Import Base Arith TagsModel SyncModel SetModel FourierModel MestModel WeightModel RobustModel BiModel UtilsModel WholeModel OptionModel.

Open Scope string_scope.
(** mestimator.py:51-56 *)
Definition sig_transfer : signature := mkSig [("outputs", false); ("inputs", false); ("weights", true); ("init", true); ("invalid_idx", true)] true.
(** mestimator.py:129-133 *)
Definition sig_chain : signature := mkSig [("e", false); ("b", false); ("weightings", false); ("z0", true); ("invalid_idx", true)] true.
(** mestimator.py:177-180 *)
Definition sig_m_estimate : signature :=
  mkSig [("e", false); ("b", false); ("z0", false); ("weight_func", false); ("invalid_idx", false); ("tol", true); ("maxit", true); ("eps", true)] false.
Close Scope string_scope.

Section Options.
Context {k : Kern} (U : UK k) {V K St : Type}.
Notation A := (kA k).
Notation E := (kE k).

(** floats, ints, initial estimates (one per output, or None), and other objects *)
Inductive mopt : Type := MNum (x : num A) | MInt (n : Z) | MInit (l : list (option (kZ k))) | MOther.

(** the values of the parameters of [m_estimate], with their defaults. Simplification: an
    object of another kind makes the call fail, instead of the line that uses it. *)
Definition real_option (default : num A) (o : option mopt) : res (num A) :=
  match o with None => Ok default | Some (MNum x) => Ok x | Some (MInt n) => Ok (nofZ A n) | Some _ => Err TypeError end.
Definition int_option (default : Z) (o : option mopt) : res Z :=
  match o with None => Ok default | Some (MInt n) => Ok n | Some _ => Err TypeError end.
Definition m_opts (bound : dict mopt) : res (opts k) :=
  tol <- real_option (ndiv A (nofZ A 1) (nofZ A 100)) (dget "tol" bound) ;;
  maxit <- int_option 100 (dget "maxit" bound) ;;
  eps <- real_option (ndiv A (nofZ A 1) (nofZ A (10 ^ 14))) (dget "eps" bound) ;;
  Ok (mkOpts k tol maxit eps).

(** mestimator.py:160: [m_estimate(e, b, z, weight_func, None, **options)] *)
Definition m_estimate_kw (kw : dict mopt) (e : list E) (b : list (kB k)) (z0 : option (kZ k)) (wf : option (wfun k St)) (st : St) :
    res (kZ k * list Z) * St :=
  match (' (bound, _) <- py_call sig_m_estimate 5 kw ;; m_opts bound) with
  | Err x => (Err x, st)
  | Ok o => m_estimate o e b z0 wf [] st
  end.

(** mestimator.py:129-174, as [chain] of MestModel.v *)
Fixpoint chain_kw (kw : dict mopt) (e : list E) (b : list (kB k)) (weightings : list (option (wfun k St))) (z : option (kZ k)) (ii : list Z) (st : St) :
    res (option (kZ k) * list (list Z)) * St :=
  match weightings with
  | [] => (Ok (z, [ii]), st)
  | w :: ws =>
      match (e <- eliminate e ii ;; b <- eliminate b ii ;;
             _ <- check (negb (length e =? 0)%nat) ValueError ;; Ok (e, b)) with
      | Err x => (Err x, st)
      | Ok (e, b) =>
          let '(r, st) := m_estimate_kw kw e b z w st in
          match r with
          | Err x => (Err x, st)
          | Ok (z, ii') =>
              let '(r, st) := chain_kw kw e b ws (Some z) ii' st in
              (' (z, l) <- r ;; Ok (z, ii :: l), st)
          end
      end
  end.

(** mestimator.py:107-114, as [each_output] of MestModel.v;
    [chain_m_estimate(line, inputs.T, weights, init[i], ivid_0, **options)] in line 111 *)
Fixpoint each_output_kw (kw : dict mopt) (b : list (kB k)) (weights : list (option (wfun k St))) (outputs : list (list E))
    (inits : list (option (kZ k))) (ivs : list (res (list Z))) (st : St) : res (list (option (kZ k) * list Z)) * St :=
  match outputs, inits, ivs with
  | e :: outputs, z0 :: inits, iv :: ivs =>
      match (' (_, rest) <- py_call sig_chain 5 kw ;; iv <- iv ;; Ok (rest, iv)) with
      | Err x => (Err x, st)
      | Ok (rest, iv) =>
          let '(r, st) := chain_kw rest e b weights z0 iv st in
          match ('(z, l) <- r ;; m <- merge_invalid_indices l ;; Ok (z, m)) with
          | Err x => (Err x, st)
          | Ok res1 => let '(r, st) := each_output_kw kw b weights outputs inits ivs st in
                       (l <- r ;; Ok (res1 :: l), st)
          end
      end
  | _, _, _ => (Ok [], st)
  end.

(** mestimator.py:51-117, as [transfer_function] of MestModel.v, called with three arguments
    and [invalid_idx=iv, **kw]: TypeError when [kw] has that key as well *)
Definition initial (o : option mopt) : res (option (list (option (kZ k)))) :=
  match o with None => Ok None | Some (MInit l) => Ok (Some l) | Some _ => Err TypeError end.
Definition transfer_function_kw (kw : dict mopt) (outputs : list (list E)) (b : list (kB k)) (weights : list (option (wfun k St))) (iv : ivarg) (st : St) :
    res (list (option (kZ k) * list Z)) * St :=
  match (_ <- check (negb (named "invalid_idx" (dkeys kw))) TypeError ;;
         ' (bound, rest) <- py_call sig_transfer 3 kw ;;
         ivs <- iv_each (length outputs) iv ;;
         _ <- check (forallb (fun e => length e =? length b) outputs) AssertionError ;;
         init <- initial (dget "init" bound) ;;
         let inits := match init with None => repeat None (length outputs) | Some l => l end in
         _ <- check (length inits =? length outputs) AssertionError ;;
         Ok (rest, ivs, inits)) with
  | Err x => (Err x, st)
  | Ok (rest, ivs, inits) => each_output_kw rest b weights outputs inits ivs st
  end.

(** utils.py:203-206, 236-237, 260-261; [transfer_function_real_prob] accepts no third
    positional argument *)
Definition estimate_kw (kw : dict mopt) (a : iargs (k := k) (St := St)) (outputs inputs : list (list E)) (ws : list (option (wfun k St))) (iv : list (list Z)) (st : St) :
    res (list (option (kZ k) * list Z)) * St :=
  if ia_real_pb a then (Err TypeError, st)
  else transfer_function_kw kw outputs (u_rows k U inputs) ws (IvEach iv) st.

(** ** utils.py:124-296 with such an estimator, as in UtilsModel.v *)
Section Estimator.
Variable est : iargs (k := k) (St := St) -> list (list E) -> list (list E) -> list (option (wfun k St)) -> list (list Z) -> St -> res (list (option (kZ k) * list Z)) * St.

(** utils.py:229-252 *)
Definition stage1_by (a : iargs) (b : list (list E)) (br : option (list (list E))) (nE : nat) (st : St) :
    res (option (option (list (kZ k)) * list (list E) * pidx)) * St :=
  match br with
  | None => (Ok (Some (None, b, PNone)), st)
  | Some br =>
      match apply_prefilter U b br (remote_prefilter a) PNone with
      | Err x => (Err x, st)
      | Ok iv0 =>
          let '(r, st) := est a b br (remote_weights a) iv0 st in
          match r with
          | Err x => (if ia_silent a then Ok None else Err x, st)
          | Ok l => (T <- rows_of ValueError (map fst l) ;;
                     Ok (Some (Some T, u_dot k U T br, PEach (repeat (merged (map snd l)) nE))), st)
          end
      end
  end.

(** utils.py:229-296 *)
Definition impedance_coeffs_by (a : iargs) (X : @sigset A V K) (coeffs : list (list E)) (w : windows) (st : St) : res (ires U) * St :=
  let pick t := idx <- t_get (ss_tags X) t ;; mapM (fun i => nth_res coeffs i) idx in
  match (e <- pick (ia_elec a) ;; b <- pick (ia_mag a) ;;
         br <- match remote_name a with None => Ok None | Some r => x <- pick r ;; Ok (Some x) end ;; Ok (e, b, br)) with
  | Err x => (Err x, st)
  | Ok (e, b, br) =>
      let nbr := match br with Some l => length l | None => 0%nat end in
      let failed := mkIres U (NaNs (length e) (length b)) [] (NaNs (length e) (length b)) (NaNs (length b) nbr) in
      let '(s1, st) := stage1_by a b br (length e) st in
      match s1 with
      | Err x => (Err x, st)
      | Ok None => (Ok failed, st)
      | Ok (Some (T, be, iv1)) =>
          match apply_prefilter U e be (ia_prefilter a) iv1 with
          | Err x => (Err x, st)
          | Ok iv2 =>
              let '(r, st) := est a e be (ia_weights a) iv2 st in
              match r with
              | Err x => (if ia_silent a then Ok failed else Err x, st)
              | Ok l =>
                  let ivid := map snd l in
                  let ivt := if ia_keep a then map (invalid_times (run_windows X w)) ivid else map (fun _ => []) ivid in
                  (z <- rows_of IndexError (map fst l) ;;
                   err <- u_error k U e be z ivid ;;
                   Ok (mkIres U (Values z) ivt (Values err) (match T with Some T => Values T | None => NaNs (length b) 0%nat end)), st)
              end
          end
      end
  end.

Section Data.
Variable fourier : @sigset A V K -> num A -> res (list (list E) * windows).

(** utils.py:213-228 *)
Definition impedance_one_by (a : iargs) (X : @sigset A V K) (freq : num A) (st : St) : res (ires U) * St :=
  match (e <- t_get (ss_tags X) (ia_elec a) ;; b <- t_get (ss_tags X) (ia_mag a) ;;
         r <- match remote_name a with None => Ok [] | Some r => t_get (ss_tags X) r end ;; Ok (length e, length b, length r)) with
  | Err x => (Err x, st)
  | Ok (Ne, Nb, Nr) =>
      match fourier X freq with
      | Err _ => (Ok (mkIres U (NaNs Nb Ne) [] (NaNs Nb Ne) (NaNs Nb Nr)), st)
      | Ok (coeffs, w) => impedance_coeffs_by a X coeffs w st
      end
  end.

(** utils.py:166-184 *)
Fixpoint impedance_results_by (a : iargs) (X : @sigset A V K) (l_freq : list (num A)) (st : St) : res (list (ires U)) * St :=
  match l_freq with
  | [] => (Ok [], st)
  | f :: l =>
      let '(r, st) := impedance_one_by a X f st in
      match r with
      | Err x => (Err x, st)
      | Ok r => let '(rs, st) := impedance_results_by a X l st in (rs <- rs ;; Ok (r :: rs), st)
      end
  end.

(** utils.py:124-186 *)
Definition impedance_by (a : iargs) (X : @sigset A V K) (l_freq : list (num A)) (st : St) : res (list (ires U)) * St :=
  let '(rs, st) := impedance_results_by a X l_freq st in
  (rs <- rs ;;
   _ <- stack (map (fun r => arr_shape (rows_shape U) (ir_z U r)) rs) ;;
   _ <- stack (map (fun r => arr_shape (u_eshape k U) (ir_err U r)) rs) ;;
   _ <- stack (map (fun r => arr_shape (rows_shape U) (ir_T U r)) rs) ;;
   Ok rs, st).
End Data.
End Estimator.
End Options.
Arguments mopt k : clear implicits.
Arguments MNum {k}. Arguments MInt {k}. Arguments MInit {k}. Arguments MOther {k}.

(** utils.py:124-186 with [mest_opts] as given; the options in the arguments [a] are not used *)
Definition impedance_mest (fo : fopts) (given : option (dict (mopt listK))) (a : arguments) (X : recordings) (l_freq : list R) : res (list result) :=
  let mest_opts := match given with Some d => d | None => [] end in
  fst (impedance_by listU (estimate_kw listU mest_opts) (coefficients fo) a X l_freq (fresh listW)).
