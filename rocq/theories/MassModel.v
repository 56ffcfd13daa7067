(** Model of src/razorback/utils.py:61-121 and 299-373: estimates and prefilter
    values over all combinations of remotes and over time intervals. *)
From Verif Require Import Base Arith TagsModel SyncModel SetModel GlobModel InvModel FourierModel MestModel UtilsModel.

(** [itertools.product( *ll)]: the last factor varies fastest *)
Fixpoint product {T} (ll : list (list T)) : list (list T) :=
  match ll with
  | [] => [[]]
  | l :: ll => flat_map (fun x => map (cons x) (product ll)) l
  end.

(** utils.py:83-88: combinations of remotes, [None] where a remote is not used *)
Definition combinations (n : nat) (combine : bool) : list (list (option nat)) :=
  if combine then product (map (fun e => [None; Some e]) (seq 0 n)) else [map Some (seq 0 n)].

(** [for x in l], on a state; the first failure ends the loop *)
Fixpoint loop {St T R} (f : T -> St -> res R * St) (l : list T) (st : St) : res (list R) * St :=
  match l with
  | [] => (Ok [], st)
  | x :: l =>
      let '(r, st) := f x st in
      match r with
      | Err e => (Err e, st)
      | Ok r => let '(rs, st) := loop f l st in (rs <- rs ;; Ok (r :: rs), st)
      end
  end.

Section Data.
Context {A : Arith} {V K : Type} (kone : K).
Notation sigset := (@sigset A V K).
Notation inventory := (@inventory A V K).
(** the order in which Python iterates over the set of rates of an inventory *)
Variable rorder : inventory -> list (num A).

(** utils.py:94 *)
Definition remote_tags (names : list string) (rind : list (option nat)) : res (list string) :=
  mapM (fun i => nth_res names i) (somes rind).

(** utils.py:95-103: the data of one combination *)
Definition combined_data (inv : inventory) (rtags : list string) : res sigset :=
  rinv <- inv_filter kone inv ["E"%string; "B"%string] ;;
  rinv <- match rtags with
          | [] => Ok rinv
          | _ => remotes <- extract_groups kone rorder inv [("Bremote"%string, rtags)] ;;
                 Ok (inv_add rinv remotes)
          end ;;
  pack_multi kone (rorder rinv) rinv.

End Data.

Section Mass.
Context {k : Kern} (U : UK k) {V K St : Type} (kone : K).
Notation A := (kA k).
Notation E := (kE k).
Notation sigset := (@sigset A V K).
Notation inventory := (@inventory A V K).
Variable fourier : sigset -> num A -> res (list (list E) * windows).
Variable rorder : inventory -> list (num A).

(** [options['remote'] = remote] *)
Definition with_remote (a : @iargs k St) (remote : option string) : @iargs k St :=
  mkIargs (ia_weights a) (ia_prefilter a) remote (ia_remote_weights a) (ia_remote_prefilter a) (ia_elec a) (ia_mag a) (ia_opts a)
    (ia_real_pb a) (ia_silent a) (ia_keep a).

(** utils.py:91-119: the body of the loop over the combinations *)
Definition one_combination (inv : inventory) (names : list string) (l_freq : list (num A)) (intervals : list (num A * num A)) (a : @iargs k St)
    (rind : list (option nat)) (st : St) : res (list (option nat) * list (list (ires U))) * St :=
  match (rt <- remote_tags names rind ;; d <- combined_data kone rorder inv rt ;; Ok (rt, d)) with
  | Err x => (Err x, st)
  | Ok (rt, data) =>
      let a := with_remote a (match rt with [] => None | _ => Some "Bremote"%string end) in
      let '(rs, st) := loop (fun iv st => match extract_t kone data (fst iv) (snd iv) false with
                                          | Err x => (Err x, st)
                                          | Ok rdata => impedance U fourier a rdata l_freq st
                                          end) intervals st in
      (rs <- rs ;; Ok (rind, rs), st)
  end.

(** utils.py:61-121 [impedance_mass_proc]; the four lists of the result are kept
    together *)
Definition impedance_mass_proc (inv : inventory) (names : list string) (l_freq : list (num A)) (intervals : list (num A * num A)) (a : @iargs k St)
    (combine : bool) (st : St) : res (list (list (option nat) * list (list (ires U)))) * St :=
  loop (one_combination inv names l_freq intervals a) (combinations (length names) combine) st.

(** ** Values of a prefilter *)
Context {R : Type}.
(** [prefilter.value(line, inputs)] *)
Variable pvalue : list E -> list (kB k) -> res R.

(** utils.py:325-328: the centres of all windows *)
Definition all_times (X : sigset) (w : windows) : list (num A) :=
  concat (map (fun p => let '((rate, start), (Nw, Lw, shift)) := p in
    map (fun i => nadd A (ndiv A (nadd A (nofZ A (Z.of_nat shift * Z.of_nat i)) (nmul A nhalf (nofZ A (Z.of_nat Lw)))) rate) start) (seq 0 Nw))
    (run_windows X w)).

(** utils.py:299-330 [prefilter_values]; [remote] and [real_pb] have no effect *)
Definition prefilter_values (X : sigset) (l_freq : list (num A)) (remote : option string) (elec mag : string) : res (list (list R) * list (list (num A))) :=
  l <- mapM (fun f =>
    '(coeffs, w) <- fourier X f ;;
    let pick t := idx <- t_get (ss_tags X) t ;; mapM (fun i => nth_res coeffs i) idx in
    e <- pick elec ;; b <- pick mag ;;
    vs <- mapM (fun line => pvalue line (u_rows k U b)) e ;;
    Ok (vs, all_times X w)) l_freq ;;
  Ok (map fst l, map snd l).

(** utils.py:349-371: one combination; the tags of the caller's data are the state *)
Definition values_combination (names : list string) (l_freq : list (num A)) (intervals : list (num A * num A)) (rind : list (option nat)) (X : sigset) :
    res (list (list (list R) * list (list (num A)))) * sigset :=
  match (rt <- remote_tags names rind ;; rcomb <- mapM (fun t => t_get (ss_tags X) t) rt ;;
         match concat rcomb with
         | [] => Ok (X, None)
         | Bremote => t <- t_set (ss_tags X) "Bremote" (RTuple (map Z.of_nat Bremote)) ;; Ok (mkSet (ss_signals X) t, Some "Bremote"%string)
         end) with
  | Err x => (Err x, X)
  | Ok (X, remote) =>
      (mapM (fun iv => rdata <- extract_t kone X (fst iv) (snd iv) false ;; prefilter_values rdata l_freq remote "E" "B") intervals, X)
  end.

(** utils.py:333-373 [prefilter_values_mass_proc]: the result, and the caller's
    data afterwards. The two lists of the result are kept together. *)
Definition prefilter_values_mass_proc (X : sigset) (names : list string) (l_freq : list (num A)) (intervals : list (num A * num A)) :
    res (list (list (list (list R) * list (list (num A))))) * sigset :=
  match (_ <- t_getattr (ss_tags X) "E" ;; t_getattr (ss_tags X) "B") with
  | Err x => (Err x, X)
  | Ok _ => loop (values_combination names l_freq intervals) (combinations (length names) true) X
  end.

End Mass.
