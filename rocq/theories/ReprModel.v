(** Model of the texts that represent tags and signal sets:
    [Tags.__repr__] (src/razorback/signalset.py:130-133), [Tags.__str__] (135-136),
    [SignalSet.__repr__] (288-291) and [SyncSignal.__repr__] (720-724), with the parts of
    Python's [repr] and [%] they rely on.

    Simplification: the text of a float with the format [.2g] is a parameter; names are
    printable ASCII for [Tags.__str__]. *)
From Coq Require Import DecimalString.
From Verif Require Import Base Arith TagsModel SyncModel SetModel.
Open Scope nat_scope. Local Open Scope string_scope. Local Open Scope list_scope. Local Open Scope nat_scope.

(** [str(n)] *)
Definition nat_text (n : nat) : string := NilEmpty.string_of_uint (Nat.to_uint n).
(** [str] of a tuple of ints *)
Definition tuple_text (l : list nat) : string :=
  match l with
  | [x] => "(" ++ nat_text x ++ ",)"
  | _ => "(" ++ String.concat ", " (map nat_text l) ++ ")"
  end%string.

(** signalset.py:131: the key [(len(x[1]), x[0])] *)
Definition item_ltb (a b : string * list nat) : bool :=
  (length (snd a) <? length (snd b)) || ((length (snd a) =? length (snd b)) && str_ltb (fst a) (fst b)).

(** signalset.py:130-133; [self.items] is subject to shadowing *)
Definition tags_repr (t : tags) : res string :=
  _ <- method t "items" ;;
  let items := stable_sort item_ltb (t_dict t) in
  let texts := map (fun e => fst e ++ "=" ++ tuple_text (snd e))%string items in
  Ok ("Tags(" ++ nat_text (idx_len (t_indices t)) ++ ", " ++ String.concat ", " texts ++ ")")%string.

(** [repr] of a printable string: single quotes, or double quotes when it contains
    single quotes only; backslashes and the quotes used are escaped *)
Fixpoint escape (q : ascii) (s : string) : string :=
  match s with
  | EmptyString => EmptyString
  | String c s => if Ascii.eqb c "\"%char || Ascii.eqb c q then String "\" (String c (escape q s)) else String c (escape q s)
  end.
Definition has (c : ascii) (s : string) : bool := existsb (Ascii.eqb c) (list_ascii_of_string s).
Definition squote : ascii := "'"%char.
Definition dquote : ascii := Ascii.ascii_of_nat 34.
Definition str_repr (s : string) : string :=
  let q := if has squote s && negb (has dquote s) then dquote else squote in
  (String q (escape q s ++ String q EmptyString))%string.

(** signalset.py:135-136: the text of a dict *)
Definition tags_str (t : tags) : string :=
  ("{" ++ String.concat ", " (map (fun e => str_repr (fst e) ++ ": " ++ tuple_text (snd e))%string (t_dict t)) ++ "}")%string.

(** [fmt % arg] for one argument, a string: [%%] and [%s]; the other directives are not
    modelled (OtherException) *)
Fixpoint percent (fmt : string) (arg : option string) : res string :=
  match fmt with
  | EmptyString => match arg with None => Ok EmptyString | Some _ => Err TypeError end
  | String c r =>
      if Ascii.eqb c "%"%char then
        match r with
        | EmptyString => Err ValueError
        | String d r =>
            if Ascii.eqb d "%"%char then s <- percent r arg ;; Ok (String c s)
            else if Ascii.eqb d "s"%char then
              match arg with
              | Some a => s <- percent r None ;; Ok (a ++ s)%string
              | None => Err TypeError
              end
            else Err OtherException
        end
      else s <- percent r arg ;; Ok (String c s)
  end.

Section Repr.
Context {A : Arith} {V K : Type} (show : num A -> string).

(** signalset.py:720-724 *)
Definition sync_repr (s : sync A V K) : string :=
  ("SyncSignal([" ++ nat_text (length (s_data s)) ++ "x" ++ nat_text (s_size s) ++ "], sampling_rate=" ++ show (s_rate s) ++
   ", start=" ++ show (s_start s) ++ ", calibrations=[...])")%string.

(** signalset.py:288-291; [%%s] of the first format is [%s] of the second *)
Definition set_repr (X : @sigset A V K) : res string :=
  percent ("SignalSet(" ++ tags_str (ss_tags X) ++ ", %s)")%string (Some (String.concat ", " (map sync_repr (ss_signals X)))).
End Repr.
