(** Model of the pattern search of [Tags], src/razorback/signalset.py:139-143. *)
From Verif Require Import Base TagsModel SetModel GlobModel.

(** [fnmatch.filter(names, pat)] *)
Definition fn_filter (names : list string) (pat : string) : list string := filter (fun n => fnmatch n pat) names.

(** signalset.py:139-140 [Tags.filter]; [sorder] is the iteration order of the
    set. The method is looked up on the object: a tag 'filter' shadows it. *)
Definition t_filter (sorder : list string -> list string) (t : tags) (patterns : list string) : res (list string) :=
  _ <- method t "filter" ;;
  Ok (sorder (dedup String.eqb (concat (map (fn_filter (dkeys (t_dict t))) patterns)))).

(** signalset.py:142-143 [Tags.filter_get]; [self.get] is called on each name
    only, so a tag 'get' is harmless when nothing matches *)
Definition t_filter_get (sorder : list string -> list string) (t : tags) (patterns : list string) : res (list nat) :=
  names <- t_filter sorder t patterns ;;
  ls <- mapM (fun k => _ <- method t "get" ;; t_get t k) names ;;
  Ok (sort_nat (dedup Nat.eqb (concat ls))).
