(** Model of the printed forms of signal sets, runs and inventories:
    [SignalSet.__str__] (src/razorback/signalset.py:252-286), [SyncSignal.__str__] (699-718)
    and [Inventory.__repr__] (902-903).

    Simplifications: as in ReprModel.v for the names; [val] gives the exact value of a
    number; [show] is [str] of a float (701-711 only). *)
From Coq Require Import QArith.
From Verif Require Import Base Arith TagsModel SyncModel SetModel ReprModel NumTextModel.
Open Scope nat_scope. Local Open Scope string_scope. Local Open Scope list_scope. Local Open Scope nat_scope.

Definition nl : string := String (ascii_of_nat 10) EmptyString.
Fixpoint chars_of (c : ascii) (n : nat) : string := match n with O => EmptyString | S n => String c (chars_of c n) end.
(** [s.rjust(n)], [format(s, '<n')] *)
Definition rjust (n : nat) (s : string) : string := (chars_of " " (n - String.length s) ++ s)%string.
Definition ljust (n : nat) (s : string) : string := (s ++ chars_of " " (n - String.length s))%string.
(** signalset.py:258 *)
Definition rjusts (w : list string) (s : list nat) : list string := map (fun e => rjust (snd e) (fst e)) (combine w s).

(** signalset.py:271-277: the lines of the tags; [cur] is the last one *)
Fixpoint wrap (cur : string) (items : list string) : list string :=
  match items with
  | [] => [cur]
  | e :: r =>
      if (52 - 7 <? String.length cur + 2 + String.length e)%nat then cur :: wrap (e ++ ", ") r
      else wrap (cur ++ e ++ ", ")%string r
  end.
(** [s[:-2]] *)
Definition cut2 (s : string) : string := String.substring 0 (String.length s - 2) s.

(** signalset.py:281 [num] *)
Definition counted (n : nat) (w : string) : string := (nat_text n ++ " " ++ w ++ (if (1 <? n)%nat then "s" else ""))%string.

Section SetText.
Context {A : Arith} {V K : Type} (val : num A -> Q) (show : num A -> string).

(** signalset.py:254-265 *)
Definition titles : list string := rjusts ["sampling"; "start"; "stop"] [10; 19; 19].
Definition sizes : list nat := map String.length titles.
Definition run_row (s : sync A V K) : res string :=
  start <- date (val (s_start s)) ;;
  stop <- s_stop s ;;
  stop <- date (val stop) ;;
  Ok (String.concat "  " (rjusts [rjust 10 (gtext 5 (val (s_rate s))); start; stop] sizes)).
Definition table (X : @sigset A V K) : res string :=
  sigs <- mapM run_row (ss_signals X) ;;
  let line := String.concat "  " (map (chars_of "-") sizes) in
  Ok (String.concat nl ([line; String.concat "  " titles] ++ sigs ++ [line])).
(** signalset.py:268-279 *)
Definition tags_lines (t : tags) : res string :=
  _ <- method t "items" ;;
  let items := stable_sort item_ltb (t_dict t) in
  let items := map (fun e => str_repr (fst e) ++ ": " ++ tuple_text (snd e))%string items in
  let content := cut2 (String.concat (nl ++ chars_of " " 7) (wrap "" items)) in
  Ok ("tags: {" ++ content ++ "}")%string.
Definition set_str (X : @sigset A V K) : res string :=
  sig <- table X ;;
  tags <- tags_lines (ss_tags X) ;;
  let first_line := ("SignalSet: " ++ counted (nb_channels X) "channel" ++ ", " ++ counted (nb_runs X) "run")%string in
  Ok (first_line ++ nl ++ tags ++ nl ++ sig)%string.

(** signalset.py:699-718 *)
Definition sync_str (s : sync A V K) : res string :=
  start <- date (val (s_start s)) ;;
  stop <- s_stop s ;;
  stop <- date (val stop) ;;
  let line (l r : string) := (ljust 14 l ++ " :   " ++ r)%string in
  Ok (String.concat (nl ++ "  - ") ["SyncSignal"; line "nb of channels" (nat_text (length (s_data s))); line "signal size" (nat_text (s_size s));
       line "sampling rate" (show (s_rate s) ++ " Hz")%string; line "start" start; line "stop" stop]).

(** signalset.py:902-903: [str] of a list; the numbers of a run are shown with [.2g] *)
Definition inv_repr (inv : list (@sigset A V K)) : res string :=
  texts <- mapM (set_repr (fun x => gtext 2 (val x))) inv ;;
  Ok ("Inventory([" ++ String.concat ", " texts ++ "])")%string.
End SetText.
