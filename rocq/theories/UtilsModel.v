(** Model of src/razorback/utils.py:61-392: transfer function estimates of a data
    set, frequency by frequency, and the runs over combinations of remotes.

    The numeric kernels are those of MestModel.v plus, in the record [UK], the
    transposition of the inputs, the product [T.dot(br)] and the error estimate.
    Fourier coefficients of a data set come from a parameter [fourier]
    (FourierModel.v gives [set_fourier]). Weight functions keep state, threaded
    through all calls. Printing is not modelled. *)
From Verif Require Import Base Arith TagsModel SyncModel SetModel FourierModel MestModel.

Record UK (k : Kern) : Type := mkUK {
  u_rows : list (list (kE k)) -> list (kB k);                      (* np.transpose(inputs) *)
  u_dot : list (kZ k) -> list (list (kE k)) -> list (list (kE k)); (* T.dot(br) *)
  uErr : Type;
  u_error : list (list (kE k)) -> list (list (kE k)) -> list (kZ k) -> list (list Z) -> res uErr; (* transfer_error, mestimator.py:21-48 *)
  u_width : kZ k -> nat;           (* number of values in a row of an estimate *)
  u_eshape : uErr -> nat * nat     (* shape of the error estimate *)
}.

(** ** index lists *)
Definition zinsert := fun l : list Z => stable_sort Z.ltb (dedup Z.eqb l).
(** numpy's union1d: sorted, without repetition *)
Definition union1d (a b : list Z) : list Z := zinsert (a ++ b).

(** what may be given as invalid_idx to apply_prefilter: None, a list of integers,
    or one list per output *)
Inductive pidx : Type := PNone | PFlat (l : list Z) | PEach (ll : list (list Z)).

Section Impedance.
Context {k : Kern} (U : UK k) {V K St : Type}.
Notation A := (kA k).
Notation E := (kE k).

(** a prefilter: [prefilter(line, inputs.T) -> invalid_idx]; it may raise *)
Definition prefilter : Type := list E -> list (kB k) -> res (list Z).

(** utils.py:376-392 [apply_prefilter] *)
Definition apply_prefilter (outputs inputs : list (list E)) (pf : option prefilter) (iv : pidx) : res (list (list Z)) :=
  let l := match iv with
           | PNone | PFlat [] | PEach [] => repeat [] (length outputs)
           | PFlat l => repeat l (length outputs)
           | PEach ll => ll
           end in
  _ <- check (negb (length l =? 0)) IndexError ;;
  _ <- check (length l =? length outputs) AssertionError ;;
  match pf with
  | None => Ok l
  | Some f => mapM (fun p => r <- f (fst p) (u_rows k U inputs) ;; Ok (union1d (snd p) r)) (combine outputs l)
  end.

(** an array that is either computed or filled with nan *)
Inductive arr (T : Type) : Type := Values (x : T) | NaNs (rows cols : nat).
Arguments Values {T}. Arguments NaNs {T}.

(** utils.py:24-38 [ImpedanceResult]. The rows of an estimate are [None] when the
    list of weights is empty. *)
Record ires : Type := mkIres {
  ir_z : arr (list (kZ k));
  ir_ivt : list (list (num A));
  ir_err : arr (uErr k U);
  ir_T : arr (list (kZ k))
}.

(** the arguments of [impedance], utils.py:124-134 *)
Record iargs : Type := mkIargs {
  ia_weights : list (option (wfun k St));
  ia_prefilter : option prefilter;
  ia_remote : option string;
  ia_remote_weights : option (list (option (wfun k St)));
  ia_remote_prefilter : option prefilter;
  ia_elec : string;
  ia_mag : string;
  ia_opts : opts k;
  ia_real_pb : bool;
  ia_silent : bool;
  ia_keep : bool
}.

(** utils.py:203-206 and the calls in lines 236 and 260: [transfer_function] or
    [transfer_function_real_prob]; the latter accepts no third positional
    argument *)
Definition estimate (a : iargs) (outputs inputs : list (list E)) (ws : list (option (wfun k St))) (iv : list (list Z)) (st : St) :
    res (list (option (kZ k) * list Z)) * St :=
  if ia_real_pb a then (Err TypeError, st)
  else transfer_function (ia_opts a) outputs (u_rows k U inputs) ws None (IvEach iv) st.

(** utils.py:273-286: the times of the rejected windows of one output. The entries
    that belong to no run (there are none for indices in range) are not modelled. *)
Fixpoint invalid_times (l : list ((num A * num A) * (nat * nat * nat))) (line : list Z) : list (num A) :=
  match l with
  | [] => []
  | ((rate, start), (Nw, Lw, shift)) :: l =>
      let ii := filter (fun i => (i <? Z.of_nat Nw)%Z) line in
      let rest := map (fun i => (i - Z.of_nat Nw)%Z) (filter (fun i => negb (i <? Z.of_nat Nw)%Z) line) in
      map (fun i => nadd A (ndiv A (nadd A (nofZ A (Z.of_nat shift * i)) (nmul A nhalf (nofZ A (Z.of_nat Lw)))) rate) start) ii
      ++ invalid_times l rest
  end.

(** the windows of a data set, as returned by [fourier_coefficients] *)
Definition windows : Type := (list nat * list nat * list nat)%type.
Definition run_windows (X : @sigset A V K) (w : windows) : list ((num A * num A) * (nat * nat * nat)) :=
  let '(Nw, Lw, sh) := w in
  combine (map (fun s => (s_rate s, s_start s)) (ss_signals X))
          (map (fun p => (fst (fst p), snd (fst p), snd p)) (combine (combine Nw Lw) sh)).

(** [len(remote)] truth value: the empty string counts as no remote *)
Definition remote_name (a : iargs) : option string :=
  match ia_remote a with Some r => if String.eqb r "" then None else Some r | None => None end.
(** utils.py:208-211: an empty list of weights is replaced as well *)
Definition remote_weights (a : iargs) : list (option (wfun k St)) :=
  match ia_remote_weights a with Some (w :: ws) => w :: ws | _ => ia_weights a end.
Definition remote_prefilter (a : iargs) : option prefilter :=
  match ia_remote_prefilter a with Some f => Some f | None => ia_prefilter a end.

(** utils.py:246: [reduce(np.union1d, ivT, np.empty(0, dtype=int))] *)
Definition merged (ivs : list (list Z)) : list Z := fold_left union1d ivs [].

(** [T.dot(br)] needs the rows of [T] to be arrays: ValueError otherwise; it is
    outside of the try block *)
Definition rows_of (x : exn) (l : list (option (kZ k))) : res (list (kZ k)) := mapM (of_option x) l.

(** utils.py:229-252: the first stage. [Ok None] is a failure that is kept silent;
    otherwise the transfer T (none without remote), the magnetic inputs of the second
    stage, and the rejected windows. *)
Definition stage1 (a : iargs) (b : list (list E)) (br : option (list (list E))) (nE : nat) (st : St) :
    res (option (option (list (kZ k)) * list (list E) * pidx)) * St :=
  match br with
  | None => (Ok (Some (None, b, PNone)), st)
  | Some br =>
      match apply_prefilter b br (remote_prefilter a) PNone with
      | Err x => (Err x, st)
      | Ok iv0 =>
          let '(r, st) := estimate a b br (remote_weights a) iv0 st in
          match r with
          | Err x => (if ia_silent a then Ok None else Err x, st)
          | Ok l => (T <- rows_of ValueError (map fst l) ;;
                     Ok (Some (Some T, u_dot k U T br, PEach (repeat (merged (map snd l)) nE))), st)
          end
      end
  end.

(** utils.py:189-296 [_impedance], after the Fourier coefficients [coeffs] with
    windows [w] *)
Definition impedance_coeffs (a : iargs) (X : @sigset A V K) (coeffs : list (list E)) (w : windows) (st : St) : res ires * St :=
  let pick t := idx <- t_get (ss_tags X) t ;; mapM (fun i => nth_res coeffs i) idx in
  match (e <- pick (ia_elec a) ;; b <- pick (ia_mag a) ;;
         br <- match remote_name a with None => Ok None | Some r => x <- pick r ;; Ok (Some x) end ;; Ok (e, b, br)) with
  | Err x => (Err x, st)
  | Ok (e, b, br) =>
      let nbr := match br with Some l => length l | None => 0 end in
      (* lines 264-269 and 288-291 *)
      let failed := mkIres (NaNs (length e) (length b)) [] (NaNs (length e) (length b)) (NaNs (length b) nbr) in
      let '(s1, st) := stage1 a b br (length e) st in
      match s1 with
      | Err x => (Err x, st)
      | Ok None => (Ok failed, st)
      | Ok (Some (T, be, iv1)) =>
          match apply_prefilter e be (ia_prefilter a) iv1 with
          | Err x => (Err x, st)
          | Ok iv2 =>
              let '(r, st) := estimate a e be (ia_weights a) iv2 st in
              match r with
              | Err x => (if ia_silent a then Ok failed else Err x, st)
              | Ok l =>
                  let ivid := map snd l in
                  let ivt := if ia_keep a then map (invalid_times (run_windows X w)) ivid else map (fun _ => []) ivid in
                  (* transfer_error uses the shape of the estimate: IndexError without rows *)
                  (z <- rows_of IndexError (map fst l) ;;
                   err <- u_error k U e be z ivid ;;
                   Ok (mkIres (Values z) ivt (Values err) (match T with Some T => Values T | None => NaNs (length b) 0 end)), st)
              end
          end
      end
  end.

Section Data.
(** [data.fourier_coefficients(freq, **fourier_opts)] *)
Variable fourier : @sigset A V K -> num A -> res (list (list E) * windows).

(** utils.py:213-228: the counts come from the tags; a failure of the Fourier
    coefficients is silent and gives nan arrays of shape (Nb, Ne) *)
Definition impedance_one (a : iargs) (X : @sigset A V K) (freq : num A) (st : St) : res ires * St :=
  match (e <- t_get (ss_tags X) (ia_elec a) ;; b <- t_get (ss_tags X) (ia_mag a) ;;
         r <- match remote_name a with None => Ok [] | Some r => t_get (ss_tags X) r end ;; Ok (length e, length b, length r)) with
  | Err x => (Err x, st)
  | Ok (Ne, Nb, Nr) =>
      match fourier X freq with
      | Err _ => (Ok (mkIres (NaNs Nb Ne) [] (NaNs Nb Ne) (NaNs Nb Nr)), st)
      | Ok (coeffs, w) => impedance_coeffs a X coeffs w st
      end
  end.

(** utils.py:166-184: the loop over the frequencies *)
Fixpoint impedance_results (a : iargs) (X : @sigset A V K) (l_freq : list (num A)) (st : St) : res (list ires) * St :=
  match l_freq with
  | [] => (Ok [], st)
  | f :: l =>
      let '(r, st) := impedance_one a X f st in
      match r with
      | Err x => (Err x, st)
      | Ok r => let '(rs, st) := impedance_results a X l st in (rs <- rs ;; Ok (r :: rs), st)
      end
  end.

(** the shape of a result *)
Definition arr_shape {T} (shape : T -> nat * nat) (x : arr T) : nat * nat :=
  match x with Values x => shape x | NaNs r c => (r, c) end.
Definition rows_shape (z : list (kZ k)) : nat * nat := (length z, match z with row :: _ => u_width k U row | [] => 0 end).

(** [np.array(l)] of a list of arrays of these shapes: ValueError unless they all
    have the same one (numpy 1.24 and later; before, an array of objects and a
    warning) *)
Definition stack (shapes : list (nat * nat)) : res unit :=
  match shapes with
  | [] => Ok tt
  | (r, c) :: l => check (forallb (fun s => (fst s =? r) && (snd s =? c)) l) ValueError
  end.

(** utils.py:124-186 [impedance]. The three arrays of the result are given by their
    slices along the first axis, one per frequency. *)
Definition impedance (a : iargs) (X : @sigset A V K) (l_freq : list (num A)) (st : St) : res (list ires) * St :=
  let '(rs, st) := impedance_results a X l_freq st in
  (rs <- rs ;;
   _ <- stack (map (fun r => arr_shape rows_shape (ir_z r)) rs) ;;
   _ <- stack (map (fun r => arr_shape (u_eshape k U) (ir_err r)) rs) ;;
   _ <- stack (map (fun r => arr_shape rows_shape (ir_T r)) rs) ;;
   Ok rs, st).
End Data.

End Impedance.
Arguments Values {T}. Arguments NaNs {T}.
