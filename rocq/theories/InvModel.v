(** Model of [Inventory], src/razorback/signalset.py:875-1064.

    Members are only compared by identity in the code (frozenset of members);
    grouping tags by *positions* of the members that carry them gives the same
    grouping, because a member repeated in the list carries the same tags at
    each of its positions.
    Iteration order of Python sets is a parameter ([order]) where it may
    matter. *)
From Verif Require Import Base Arith TagsModel SyncModel SetModel GlobModel.

Section Inv.
Context {A : Arith} {V K : Type} (kone : K).
Notation sigset := (@sigset A V K).

Definition inventory := list sigset.

(** what a caller may pass to append / extend *)
Inductive member : Type := MSet (s : sigset) | MOther.

(** signalset.py:925-937 [append]: new content or ValueError *)
Definition inv_append (inv : inventory) (m : member) : inventory * res unit :=
  match m with
  | MSet s => (inv ++ [s], Ok tt)
  | MOther => (inv, Err ValueError)
  end.

(** signalset.py:939-945 [extend]: element by element *)
Fixpoint inv_extend (inv : inventory) (l : list member) : inventory * res unit :=
  match l with
  | [] => (inv, Ok tt)
  | m :: l' => match inv_append inv m with
               | (inv', Ok _) => inv_extend inv' l'
               | (inv', Err e) => (inv', Err e)
               end
  end.

(** signalset.py:919-923 [__add__] *)
Definition inv_add (a b : inventory) : inventory := a ++ b.

(** signalset.py:947-951 [tags]: the set of all names *)
Definition inv_tags (inv : inventory) : list string :=
  dedup String.eqb (concat (map (fun e => dkeys (t_dict (ss_tags e))) inv)).

(** signalset.py:969-974 [extract_t] *)
Definition inv_extract_t (inv : inventory) (start stop : num A) (exclude : bool) : res inventory :=
  l <- mapM (fun e => extract_t kone e start stop exclude) inv ;;
  Ok (filter (fun e => negb (nb_runs e =? 0)) l).

(** signalset.py:979 [set().union( *(e.tags.get(k, ()) for k in keys))] *)
Definition get_keys (e : sigset) (keys : list string) : res (list nat) :=
  l <- mapM (fun k => _ <- method (ss_tags e) "get" ;;
                      Ok (match dget k (t_dict (ss_tags e)) with Some l => l | None => [] end)) keys ;;
  Ok (dedup Nat.eqb (concat l)).

(** signalset.py:976-982 [select_channels] *)
Definition inv_select_channels (inv : inventory) (keys : list string) : res inventory :=
  l <- mapM (fun e =>
         idx <- get_keys e keys ;;
         if length idx =? 0 then Ok None
         else s <- select_channels kone e (SelSeq (map (fun i => CInt (Z.of_nat i)) idx)) ;;
              Ok (Some s)) inv ;;
  Ok (somes l).

(** signalset.py:984-989 [select_runs] *)
Definition inv_select_runs (inv : inventory) (runs : list runsel) : res inventory :=
  _ <- check (length runs =? length inv) AssertionError ;;
  l <- mapM (fun er => select_runs kone (fst er) (snd er)) (combine inv runs) ;;
  Ok (filter (fun e => negb (nb_runs e =? 0)) l).

(** signalset.py:991-1005 [filter] *)
Definition inv_filter (inv : inventory) (patterns : list string) : res inventory :=
  inv_select_channels inv
    (filter (fun t => existsb (fnmatch t) patterns) (inv_tags inv)).

(** signalset.py:1018-1032 [_join_merge] (alias [merge]) *)
Definition has_tag (t : string) (e : sigset) : bool := dmem t (t_dict (ss_tags e)).
Definition carriers (inv : inventory) (t : string) : list bool := map (has_tag t) inv.
Definition bools_eqb (a b : list bool) : bool := if list_eq_dec bool_dec a b then true else false.
Definition tag_groups (inv : inventory) : list (list string) :=
  let tags := inv_tags inv in
  let keys := dedup bools_eqb (map (carriers inv) tags) in
  let groups := map (fun k => filter (fun t => bools_eqb (carriers inv t) k) tags) keys in
  stable_sort (lex_ltb str_ltb) (map (stable_sort str_ltb) groups).

(** [SignalSet.join( *l)]: TypeError when l is empty *)
Definition join_list (l : list sigset) : res sigset :=
  match l with [] => Err TypeError | s :: l' => join kone s (map ASet l') end.

Definition join_merge (inv : inventory) : res sigset :=
  match inv with
  | [] => set_new kone (TDict []) []
  | _ =>
      content <- mapM (fun k => l <- inv_select_channels inv k ;; join_list l) (tag_groups inv) ;;
      match content with
      | [] => Err IndexError
      | [a] => Ok a
      | a :: others => merge kone a others
      end
  end.

(** the mask [f == f0] for one member *)
Definition rate_mask (f0 : num A) (e : sigset) : runsel :=
  RunMask (map (fun s => neqb A (s_rate s) f0) (ss_signals e)).

Definition all_rates (inv : inventory) : list (num A) :=
  concat (map (fun e => map s_rate (ss_signals e)) inv).

(** signalset.py:1054-1062 [pack(keep_multi_tags=True)]; [order] lists the
    distinct rates in the order in which Python iterates over their set *)
Definition pack_multi (order : list (num A)) (inv : inventory) : res sigset :=
  let tags := inv_tags inv in
  sigs <- mapM (fun f0 => i <- inv_select_runs inv (map (rate_mask f0) inv) ;; join_merge i) order ;;
  let sigs := filter (fun s => negb (nb_runs s =? 0)
                               && subsetb String.eqb tags (dkeys (t_dict (ss_tags s)))) sigs in
  match sigs with
  | [] => set_new kone (TDict []) []
  | _ => j <- join_list sigs ;; merge_consecutive_runs kone j
  end.

(** signalset.py:1048-1053: the single-channel tags; [torder] lists them in the
    iteration order of the set *)
Definition single_tags (inv : inventory) : list string :=
  filter (fun t => existsb (fun e => match dget t (t_dict (ss_tags e)) with
                                     | Some l => length l =? 1
                                     | None => false end) inv) (inv_tags inv).
Definition split_single (torder : list string) (inv : inventory) : res inventory :=
  l <- mapM (fun t => inv_select_channels inv [t]) torder ;; Ok (concat l).

(** signalset.py:1034-1062 [pack] *)
Definition pack (keep_multi_tags : bool) (torder : list string) (order : list (num A))
  (inv : inventory) : res sigset :=
  if keep_multi_tags then pack_multi order inv
  else i <- split_single torder inv ;; pack_multi order i.

(** the default orders, used when the order is irrelevant *)
Definition rates_of (inv : inventory) : list (num A) := dedup (neqb A) (all_rates inv).

(** signalset.py:1007-1016 [extract_groups]; [order] of the rates for each pack *)
Definition extract_group (order : list (num A)) (inv : inventory) (g : string * list string) : res sigset :=
  i <- inv_filter inv (snd g) ;;
  sig <- pack_multi order i ;;
  l <- mapM (fun t => t_get (ss_tags sig) t) (snd g) ;;
  t' <- t_set (ss_tags sig) (fst g) (RTuple (map Z.of_nat (concat l))) ;;
  Ok (mkSet (ss_signals sig) t').
Definition extract_groups (rorder : inventory -> list (num A)) (inv : inventory) (groups : list (string * list string)) : res inventory :=
  mapM (fun g => i <- inv_filter inv (snd g) ;; extract_group (rorder i) inv g) groups.

End Inv.
