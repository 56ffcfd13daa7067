(** Model of Python's [fnmatch] (POSIX), as used by
    src/razorback/signalset.py:140 (Tags.filter) and :1004 (Inventory.filter).

    Follows [fnmatch.translate]: '*', '?', '[seq]', '[!seq]'; an unclosed '['
    is a literal. Simplification: a set made only of empty ranges and a leading
    '!' coming out of their removal (e.g. '[b-a!]') is not treated specially. *)
From Verif Require Import Base.

Inductive gtok : Type :=
| GChar (c : ascii)
| GAny
| GStar
| GSet (neg : bool) (items : list (ascii * ascii)).   (* closed ranges *)

Definition c_star : ascii := "*"%char.
Definition c_quest : ascii := "?"%char.
Definition c_open : ascii := "["%char.
Definition c_close : ascii := "]"%char.
Definition c_bang : ascii := "!"%char.
Definition c_dash : ascii := "-"%char.

(** split at the first ']' : Some (before, after) *)
Fixpoint split_close (l : list ascii) : option (list ascii * list ascii) :=
  match l with
  | [] => None
  | c :: l' => if Ascii.eqb c c_close then Some ([], l')
               else match split_close l' with
                    | Some (a, b) => Some (c :: a, b)
                    | None => None
                    end
  end.

(** body of a set, after '[': optional '!', a ']' in first position is literal *)
Definition parse_set (l : list ascii) : option (bool * list ascii * list ascii) :=
  let '(neg, l1) := match l with
                    | c :: l' => if Ascii.eqb c c_bang then (true, l') else (false, l)
                    | [] => (false, l) end in
  match l1 with
  | c :: l2 => if Ascii.eqb c c_close
               then match split_close l2 with
                    | Some (a, b) => Some (neg, c :: a, b)
                    | None => None end
               else match split_close l1 with
                    | Some (a, b) => Some (neg, a, b)
                    | None => None end
  | [] => None
  end.

Fixpoint set_items (fuel : nat) (l : list ascii) : list (ascii * ascii) :=
  match fuel with
  | 0 => []
  | S fuel =>
      match l with
      | [] => []
      | a :: d :: b :: l' =>
          if Ascii.eqb d c_dash then (a, b) :: set_items fuel l'
          else (a, a) :: set_items fuel (d :: b :: l')
      | a :: l' => (a, a) :: set_items fuel l'
      end
  end.

(** fuel: the length of the pattern always suffices *)
Fixpoint glob_parse (fuel : nat) (l : list ascii) : list gtok :=
  match fuel with
  | 0 => []
  | S fuel =>
      match l with
      | [] => []
      | c :: l' =>
          if Ascii.eqb c c_star then GStar :: glob_parse fuel l'
          else if Ascii.eqb c c_quest then GAny :: glob_parse fuel l'
          else if Ascii.eqb c c_open then
            match parse_set l' with
            | Some (neg, body, rest) => GSet neg (set_items (length body) body) :: glob_parse fuel rest
            | None => GChar c :: glob_parse fuel l'
            end
          else GChar c :: glob_parse fuel l'
      end
  end.

Definition ascii_leb (a b : ascii) : bool := (N_of_ascii a <=? N_of_ascii b)%N.

Definition in_items (c : ascii) (items : list (ascii * ascii)) : bool :=
  existsb (fun r => ascii_leb (fst r) c && ascii_leb c (snd r)) items.

Fixpoint gmatch (p : list gtok) : list ascii -> bool :=
  match p with
  | [] => fun s => match s with [] => true | _ => false end
  | GChar c :: p' => fun s => match s with d :: s' => Ascii.eqb c d && gmatch p' s' | [] => false end
  | GAny :: p' => fun s => match s with _ :: s' => gmatch p' s' | [] => false end
  | GSet neg items :: p' =>
      fun s => match s with
               | d :: s' => xorb neg (in_items d items) && gmatch p' s'
               | [] => false end
  | GStar :: p' =>
      fix star (s : list ascii) : bool :=
        gmatch p' s || match s with [] => false | _ :: s' => star s' end
  end.

(** [fnmatch.fnmatchcase(name, pat)]; [fnmatch.filter(names, pat)] keeps the
    names for which it holds *)
Definition fnmatch (name pat : string) : bool :=
  let p := list_ascii_of_string pat in
  gmatch (glob_parse (length p) p) (list_ascii_of_string name).
