(** Model of [SignalSet], src/razorback/signalset.py:146-651.

    Not modelled here: printing ([__str__], [__repr__]); Fourier coefficients
    are in FourierModel.v. *)
From Verif Require Import Base Arith TagsModel SyncModel.

Section SigSet.
Context {A : Arith} {V K : Type} (kone : K).
Notation sync := (sync A V K).
Notation sync_new := (@sync_new A V K kone).

(** A SignalSet object: [_signals] and [_tags] *)
Record sigset : Type := mkSet { ss_signals : list sync; ss_tags : tags }.

(** What may be passed as [tags]: a Tags object or a plain dict *)
Inductive tagarg : Type := TObj (t : tags) | TDict (d : dict raw).
(** What may be passed as [signal_i] *)
Inductive sigarg : Type := ASync (s : sync) | ASet (s : sigset).

(** iteration over the items of a tagarg, values as the user sees them
    (a Tags object stores tuples) *)
Definition arg_dict (a : tagarg) : dict raw :=
  match a with
  | TObj t => map (fun kv => (fst kv, RTuple (map Z.of_nat (snd kv)))) (t_dict t)
  | TDict d => d
  end.

(** signalset.py:299-306 [nb_channels]; [None] for [self.tags is None] *)
Definition nb_channels_of (signals : list sync) (t : option tags) : nat :=
  match signals with
  | s :: _ => length (s_data s)
  | [] => match t with None => 0 | Some t => idx_len (t_indices t) end
  end.
Definition nb_channels (X : sigset) : nat := nb_channels_of (ss_signals X) (Some (ss_tags X)).
(** signalset.py:308-311 *)
Definition nb_runs (X : sigset) : nat := length (ss_signals X).

(** signalset.py:405-412 the [tags] setter; [old] is the current [_tags].
    [Tags(n or None, **value)] needs [value.keys()] when value is a Tags. *)
Definition set_tags (signals : list sync) (old : option tags) (value : tagarg) : res tags :=
  let n := nb_channels_of signals old in
  _ <- match value with
       | TObj t => check ((n =? 0) || forallb (fun i => i <? n) (idx_list (t_indices t))) ValueError
       | TDict _ => Ok tt
       end ;;
  _ <- match value with TObj t => method t "keys" | TDict _ => Ok tt end ;;
  tags_new (if n =? 0 then None else Some (Z.of_nat n)) (arg_dict value).

(** the overlap test of signalset.py:245-246 on sorted intervals *)
Fixpoint no_overlap (l : list (num A * num A)) : bool :=
  match l with
  | [] => true
  | (_, b) :: l' => match l' with
                    | [] => true
                    | (c, _) :: _ => nleb A b c && no_overlap l'
                    end
  end.

Definition sort_intervals (l : list (num A * num A)) : list (num A * num A) :=
  stable_sort (fun x y => nltb A (fst x) (fst y)) l.
Definition sort_signals (l : list sync) : list sync :=
  stable_sort (fun x y => nltb A (s_start x) (s_start y)) l.

(** signalset.py:236-250 [SignalSet.__init__] when every signal is a SyncSignal *)
Definition set_of_syncs (tg : tagarg) (signals : list sync) : res sigset :=
  _ <- check (length (dedup Nat.eqb (map (fun s => length (s_data s)) signals)) <=? 1) AssertionError ;;
  l <- mapM s_interval signals ;;
  _ <- check (no_overlap (sort_intervals l)) AssertionError ;;
  let sorted := sort_signals signals in
  t <- set_tags sorted None tg ;;
  Ok (mkSet sorted t).

(** signalset.py:333-368 [_reorder_data] *)
Definition reorder (X : sigset) (tg : tagarg) : res sigset :=
  let self := t_dict (ss_tags X) in
  let new := arg_dict tg in
  if match tg with TObj t => tags_eqb (ss_tags X) t | TDict _ => false end then Ok X else
  _ <- check (seteqb String.eqb (dkeys new) (dkeys self)) AssertionError ;;
  (* all(len(tags[t]) == len(self.tags[t]) for t in tags) *)
  _ <- mapM (fun kv =>
         match snd kv with
         | RInt _ => Err TypeError
         | RTuple l | RList l =>
             check (match dget (fst kv) self with
                    | Some l' => length l =? length l'
                    | None => false end) AssertionError
         end) new ;;
  (* sum((tags[t] for t in tags), ()): only tuples can be added *)
  idx_new <- mapM (fun kv => match snd kv with RTuple l => Ok l | _ => Err TypeError end) new ;;
  let idx_new := concat idx_new in
  let idx_self := concat (map (fun kv => match dget (fst kv) self with Some l => l | None => [] end) new) in
  let pairs := combine idx_self idx_new in
  (* inv[ni] = {si}, all singletons *)
  let inv_set (ni : Z) := dedup Nat.eqb (map fst (filter (fun p => Z.eqb (snd p) ni) pairs)) in
  _ <- check (forallb (fun ni => length (inv_set ni) =? 1) idx_new) AssertionError ;;
  let inv (i : nat) : res nat :=
    match inv_set (Z.of_nat i) with [si] => Ok si | _ => Err KeyError end in
  signals <- mapM (fun s =>
       idx <- mapM inv (seq 0 (nb_channels X)) ;;
       data <- mapM (nth_res (s_data s)) idx ;;
       cal <- mapM (nth_res (s_cal s)) idx ;;
       sync_new data (s_rate s) (s_start s) (Some cal)) (ss_signals X) ;;
  set_of_syncs tg signals.

(** signalset.py:236-250 [SignalSet.__init__], general case *)
Definition set_new (tg : tagarg) (signals : list sigarg) : res sigset :=
  sets <- mapM (fun a => match a with
                         | ASync s => Ok [s]
                         | ASet X => Y <- reorder X tg ;; Ok (ss_signals Y)
                         end) signals ;;
  set_of_syncs tg (concat sets).

(** user assignment [S.tags = value], signalset.py:405-412 *)
Definition assign_tags (X : sigset) (value : tagarg) : res sigset :=
  t <- set_tags (ss_signals X) (Some (ss_tags X)) value ;; Ok (mkSet (ss_signals X) t).

(** signalset.py:463-477 [join] *)
Definition join (X : sigset) (others : list sigarg) : res sigset :=
  set_new (TObj (ss_tags X)) (ASet X :: others).

(** *** select_channels *)
Inductive chan : Type := CName (k : string) | CInt (z : Z).
Inductive chansel : Type :=
| SelOne (c : chan)              (* 'Ex' or 3 *)
| SelSeq (l : list chan)         (* ['Ex', 3, ...] *)
| SelSlice (sl : pyslice).       (* a slice *)

(** resolution of one identifier, signalset.py:434-441 *)
Definition resolve_chan (t : tags) (c : chan) : res (list nat) :=
  match c with
  | CName k => of_option ValueError (dget k (t_dict t))
  | CInt z => if idx_mem z (t_indices t) then Ok [Z.to_nat z] else Err ValueError
  end.

Definition sort_nat (l : list nat) : list nat := stable_sort Nat.ltb l.

Fixpoint index_of (x : nat) (l : list nat) : nat :=
  match l with [] => 0 | y :: l' => if x =? y then 0 else S (index_of x l') end.

(** signalset.py:443-450, from the resolved channel numbers *)
Definition select_indices (X : sigset) (idx : list nat) : res sigset :=
  let indices := sort_nat (dedup Nat.eqb idx) in
  _ <- method (ss_tags X) "items" ;;
  let kept := filter (fun kv => subsetb Nat.eqb (snd kv) indices) (t_dict (ss_tags X)) in
  let newd := map (fun kv => (fst kv, RList (map (fun i => Z.of_nat (index_of i indices)) (snd kv)))) kept in
  t <- tags_new (Some (Z.of_nat (length indices))) newd ;;
  signals <- mapM (fun s => s_select kone s indices) (ss_signals X) ;;
  set_of_syncs (TObj t) signals.

(** signalset.py:414-450 [select_channels] *)
Definition select_channels (X : sigset) (c : chansel) : res sigset :=
  let t := ss_tags X in
  ids <- match c with
         | SelOne (CName k) =>
             (* a tag name becomes its channel numbers; another str is an error *)
             match dget k (t_dict t) with
             | Some l => Ok (map (fun i => CInt (Z.of_nat i)) l)
             | None => Err ValueError
             end
         | SelOne (CInt z) => Ok [CInt z]
         | SelSeq l => Ok l
         | SelSlice sl =>
             r <- slice_range sl (nb_channels X) ;; Ok (map CInt r)
         end ;;
  idx <- mapM (resolve_chan t) ids ;;
  select_indices X (concat idx).

(** *** select_runs, signalset.py:452-461: np.arange(nb_runs)[runs].flat *)
Inductive runsel : Type :=
| RunInt (z : Z) | RunSlice (sl : pyslice) | RunIdx (l : list Z) | RunMask (m : list bool).

Definition np_index (n : nat) (z : Z) : res nat :=
  let j := if (z <? 0)%Z then (z + Z.of_nat n)%Z else z in
  if (j <? 0)%Z || (Z.of_nat n <=? j)%Z then Err IndexError else Ok (Z.to_nat j).

Fixpoint mask_indices (m : list bool) (i : nat) : list nat :=
  match m with
  | [] => []
  | b :: m' => if b then i :: mask_indices m' (S i) else mask_indices m' (S i)
  end.

Definition run_indices (n : nat) (r : runsel) : res (list nat) :=
  match r with
  | RunInt z => i <- np_index n z ;; Ok [i]
  | RunSlice sl => l <- slice_range sl n ;; Ok (map Z.to_nat l)
  | RunIdx l => mapM (np_index n) l
  | RunMask m => if length m =? n then Ok (mask_indices m 0) else Err IndexError
  end.

Definition select_runs (X : sigset) (r : runsel) : res sigset :=
  idx <- run_indices (nb_runs X) r ;;
  runs <- mapM (nth_res (ss_signals X)) idx ;;
  set_new (TObj (ss_tags X)) (map ASync runs).

(** signalset.py:313-331 [__getitem__] *)
Inductive getidx : Type :=
| GNone                                    (* s[()] *)
| GChan (c : chansel)                      (* s[channels] *)
| GBoth (c : chansel) (r : runsel)         (* s[channels, runs] *)
| GMany.                                   (* more than two indices *)
Definition getitem (X : sigset) (i : getidx) : res sigset :=
  match i with
  | GNone => Ok X
  | GChan c => select_channels X c
  | GBoth c r => Y <- select_channels X c ;; select_runs Y r
  | GMany => Err IndexError
  end.

(** *** extract_t, signalset.py:542-556 *)
Definition num_min (l : list (num A)) : res (num A) :=
  match l with [] => Err ValueError | x :: l' => Ok (fold_left pmin l' x) end.
Definition num_max (l : list (num A)) : res (num A) :=
  match l with [] => Err ValueError | x :: l' => Ok (fold_left pmax l' x) end.

Definition extract_in (X : sigset) (start stop : num A) : res sigset :=
  signals <- mapM (fun s => sync_extract_t kone s start stop false) (ss_signals X) ;;
  let signals := filter (fun s => 1 <? s_size s) signals in
  set_new (TObj (ss_tags X)) (map ASync signals).

Definition extract_t (X : sigset) (start stop : num A) (exclude : bool) : res sigset :=
  if exclude then
    first <- num_min (map s_start (ss_signals X)) ;;
    left <- extract_in X first start ;;
    stops <- mapM s_stop (ss_signals X) ;;
    last <- num_max stops ;;
    right <- extract_in X stop last ;;
    join left [ASet right]
  else extract_in X start stop.

(** *** merge, signalset.py:479-540 *)

(** signalset.py:504-512 [rec]: recursively find common intervals *)
Fixpoint common (d f : num A) (seq : list (list (num A * num A))) : list (num A * num A) :=
  match seq with
  | [] => [(d, f)]
  | ivs :: rest =>
      (fix loop (ivs : list (num A * num A)) : list (num A * num A) :=
         match ivs with
         | [] => []
         | (dh, fh) :: ivs' =>
             if nleb A fh d then loop ivs'
             else if nleb A f dh then []
             else common (pmax d dh) (pmin f fh) rest ++ loop ivs'
         end) ivs
  end.

Definition intervals (X : sigset) : res (list (num A * num A)) := mapM s_interval (ss_signals X).

(** signalset.py:498-499 running sums of the channel counts *)
Fixpoint shifts (c : nat) (seqs : list sigset) : list nat :=
  match seqs with [] => [] | s :: l => c :: shifts (c + nb_channels s) l end.

(** signalset.py:518-536 the body of the loop over common intervals:
    [None] when the rates differ (continue) *)
Definition merge_one (seqs : list sigset) (iv : num A * num A) : res (option sync) :=
  let '(start, stop) := iv in
  ss <- mapM (fun s => extract_t s start stop false) seqs ;;
  _ <- check (forallb (fun s => nb_runs s =? 1) ss) AssertionError ;;
  let ss := concat (map ss_signals ss) in
  match dedup (neqb A) (map s_rate ss) with
  | [rate] =>
      _ <- check (forallb (fun s => neqb A (s_start s) start) ss) AssertionError ;;
      s <- sync_new (concat (map s_data ss)) rate start (Some (concat (map s_cal ss))) ;;
      Ok (Some s)
  | _ => Ok None
  end.

Fixpoint somes {B} (l : list (option B)) : list B :=
  match l with [] => [] | Some x :: l' => x :: somes l' | None :: l' => somes l' end.

Definition merge_tags (seqs : list sigset) : dict raw :=
  concat (map (fun cs => map (fun kv => (fst kv, RList (map (fun i => Z.of_nat (i + fst cs)) (snd kv))))
                             (t_dict (ss_tags (snd cs))))
              (combine (shifts 0 seqs) seqs)).

(** signalset.py:479-538 [merge], [seqs = (self,) + others] *)
Definition merge_all (seqs : list sigset) : res sigset :=
  _ <- mapM (fun s => method (ss_tags s) "keys") seqs ;;
  (* no tag name used twice *)
  let names := concat (map (fun s => dkeys (t_dict (ss_tags s))) seqs) in
  _ <- check (length (dedup String.eqb names) =? length names) AssertionError ;;
  _ <- mapM (fun s => method (ss_tags s) "items") seqs ;;
  let N := fold_left (fun c s => c + nb_channels s) seqs 0 in
  t <- tags_new (Some (Z.of_nat N)) (merge_tags seqs) ;;
  seq_intervals <- mapM intervals seqs ;;
  (* np.min / np.max over both columns of each operand, ValueError if empty *)
  mins <- mapM (fun l => num_min (concat (map (fun iv => [fst iv; snd iv]) l))) seq_intervals ;;
  start <- num_min mins ;;
  maxs <- mapM (fun l => num_max (concat (map (fun iv => [fst iv; snd iv]) l))) seq_intervals ;;
  stop <- num_max maxs ;;
  signals <- mapM (merge_one seqs) (common start stop seq_intervals) ;;
  set_new (TObj t) (map ASync (somes signals)).

Definition merge (X : sigset) (others : list sigset) : res sigset := merge_all (X :: others).

(** *** merge_consecutive_runs, signalset.py:608-651 *)

(** signalset.py:634-651 [_group_indices]; [None] is an open end *)
Fixpoint group_indices_from (l : list bool) (i : nat) (start : option nat) : list (nat * option nat) :=
  match l with
  | [] => match start with Some st => [(st, None)] | None => [] end
  | b :: l' =>
      match start with
      | Some st => if b then group_indices_from l' (S i) start
                   else (st, Some (i + 1)) :: group_indices_from l' (S i) None
      | None => if b then group_indices_from l' (S i) (Some i)
                else group_indices_from l' (S i) None
      end
  end.
Definition group_indices (l : list bool) : list (nat * option nat) := group_indices_from l 0 None.

(** np.isclose(a, b) with the default tolerances *)
Definition isclose (a b : num A) : bool :=
  (nleb A (nabs A (nsub A a b)) (nadd A (natol A) (nmul A (nrtol A) (nabs A b))) && nfinite A b)
  || neqb A a b.

(** signalset.py:617-619 the flags for one sampling rate: run i and run i+1
    both have the rate and are one period apart *)
Fixpoint consecutive_flags (rate : num A) (runs : list (num A * (num A * num A))) : list bool :=
  match runs with
  | [] => []
  | (r0, (_, stop0)) :: runs' =>
      match runs' with
      | [] => []
      | (r1, (start1, _)) :: _ =>
          (neqb A r0 rate && neqb A r1 rate
           && isclose (ndiv A (n1 A) rate) (nsub A start1 stop0))
          :: consecutive_flags rate runs'
      end
  end.

(** np.unique: sorted distinct values *)
Definition np_unique (l : list (num A)) : list (num A) :=
  stable_sort (nltb A) (dedup (neqb A) l).

Definition group_slice (g : nat * option nat) : pyslice :=
  mkSlice (Some (Z.of_nat (fst g))) (option_map Z.of_nat (snd g)) None.

(** signalset.py:621-628 one merged run *)
Definition merge_group (X : sigset) (rate : num A) (g : nat * option nat) : res sync :=
  grp <- select_runs X (RunSlice (group_slice g)) ;;
  match ss_signals grp with
  | [] => Err IndexError
  | s0 :: _ =>
      let data := map (fun i => concat (map (fun v => nth i (s_data v) []) (ss_signals grp)))
                      (seq 0 (nb_channels grp)) in
      sync_new data rate (s_start s0) (Some (s_cal s0))
  end.

(** [added[start:stop] = True] *)
Definition mark (g : nat * option nat) (added : list bool) : list bool :=
  map (fun ib => let '(i, b) := ib in
         b || ((fst g <=? i) && match snd g with None => true | Some e => i <? e end))
      (combine (seq 0 (length added)) added).

Definition merge_consecutive_runs (X : sigset) : res sigset :=
  res0 <- set_new (TObj (ss_tags X)) [] ;;
  let rates := map s_rate (ss_signals X) in
  ivs <- (if (length rates =? 0) then Ok [] else intervals X) ;;
  let runs := combine rates ivs in
  '(res1, added) <-
    foldM (fun st rate =>
             foldM (fun st g =>
                      let '(r, added) := st in
                      m <- merge_group X rate g ;;
                      r' <- join r [ASync m] ;;
                      Ok (r', mark g added))
                   st (group_indices (consecutive_flags rate runs)))
          (res0, repeat false (nb_runs X)) (np_unique rates) ;;
  rest <- select_runs X (RunMask (map negb added)) ;;
  join res1 [ASet rest].

End SigSet.
