(** Model of src/razorback/utils.py:444-544: [tags_from_path], with the parts of
    Python's [os.path], [fnmatch], [re] and [string.Formatter] it relies on.
    Texts are lists of characters (8 bit). *)
From Verif Require Import Base GlobModel.

Notation text := (list ascii).
Definition txt (s : string) : text := list_ascii_of_string s.
Definition teqb (a b : text) : bool := if list_eq_dec ascii_dec a b then true else false.
Definition c_slash : ascii := "/"%char.
Definition c_dot : ascii := "."%char.
Definition c_lbrace : ascii := "{"%char.
Definition c_rbrace : ascii := "}"%char.
Definition c_nl : ascii := Ascii.ascii_of_nat 10.
Definition is (c d : ascii) : bool := Ascii.eqb c d.

(** ** [posixpath.normpath] *)

(** [s.split('/')] *)
Fixpoint split_slash (l : text) : list text :=
  match l with
  | [] => [[]]
  | c :: l => if is c c_slash then [] :: split_slash l
              else match split_slash l with x :: r => (c :: x) :: r | [] => [[c]] end
  end.

(** ['/'.join(l)] *)
Fixpoint join_slash (l : list text) : text :=
  match l with
  | [] => []
  | [x] => x
  | x :: l => x ++ c_slash :: join_slash l
  end.

(** the components kept; [acc] holds them in reverse order *)
Fixpoint norm_comps (rooted : bool) (acc : list text) (l : list text) : list text :=
  match l with
  | [] => rev acc
  | c :: l =>
      if teqb c [] || teqb c (txt ".") then norm_comps rooted acc l
      else if negb (teqb c (txt "..")) || (negb rooted && match acc with [] => true | _ => false end)
              || match acc with a :: _ => teqb a (txt "..") | [] => false end
           then norm_comps rooted (c :: acc) l
           else norm_comps rooted (tl acc) l
  end.

Definition initial_slashes (l : text) : nat :=
  match l with
  | a :: r => if is a c_slash then
                match r with
                | b :: r' => if is b c_slash then
                               match r' with c :: _ => if is c c_slash then 1 else 2 | [] => 2 end
                             else 1
                | [] => 1
                end
              else 0
  | [] => 0
  end.

Definition normpath (l : text) : text :=
  let n := initial_slashes l in
  let r := repeat c_slash n ++ join_slash (norm_comps (negb (n =? 0)) [] (split_slash l)) in
  match r with [] => txt "." | _ => r end.

(** ** utils.py:505-526 [_prepare_pattern] *)
Definition m_flag : text := txt "$@flag@$".
Definition m_single : text := txt "$@singlestar@$".
Definition m_double : text := txt "$@doublestar@$".
Definition boxed (m : text) : text := c_open :: m ++ [c_close].

(** what follows the first '}' of the line *)
Fixpoint after_brace (l : text) : option text :=
  match l with
  | [] => None
  | c :: l => if is c c_rbrace then Some l else if is c c_nl then None else after_brace l
  end.

(** [re.sub(r'{.*?}', flag, pattern)]; fuel: the length of the text suffices *)
Fixpoint sub_fields (fuel : nat) (l : text) : text :=
  match fuel with
  | 0 => []
  | S fuel =>
      match l with
      | [] => []
      | c :: l => if is c c_lbrace then
                    match after_brace l with
                    | Some r => boxed m_flag ++ sub_fields fuel r
                    | None => c :: sub_fields fuel l
                    end
                  else c :: sub_fields fuel l
      end
  end.

(** [re.sub(r'\*\*', doublestar, .)] then [re.sub(r'\*', singlestar, .)] *)
Fixpoint sub_stars (l : text) : text :=
  match l with
  | [] => []
  | c :: l =>
      if is c c_star then
        match l with
        | d :: l' => if is d c_star then boxed m_double ++ sub_stars l' else boxed m_single ++ sub_stars l
        | [] => boxed m_single
        end
      else c :: sub_stars l
  end.

(** the regular expression: what [fnmatch.translate] gives, with the marks
    replaced. It matches the whole text, and '.' matches every character. *)
Inductive ptok : Type :=
| PChar (c : ascii)
| PAny                                            (* . *)
| PSet (neg : bool) (items : list (ascii * ascii)) (* [..] or [^..] *)
| PField                                          (* ([_0-9A-Za-z]+?) *)
| PStar                                           (* [^/]*? *)
| PDouble.                                        (* .*? *)

Fixpoint is_suffix (m l : text) : bool :=
  teqb m l || match l with [] => false | _ :: l => is_suffix m l end.

(** one set of the translated pattern. [None]: the mark ends a larger set, so that
    its replacement breaks the expression (around a field: re.error, unbalanced
    parenthesis; around a star: another expression, not modelled) *)
Definition set_tok (neg : bool) (body : text) : option ptok :=
  if negb neg && teqb body m_flag then Some PField
  else if negb neg && teqb body m_single then Some PStar
  else if negb neg && teqb body m_double then Some PDouble
  else if existsb (fun m => is_suffix (c_open :: m) body) [m_flag; m_single; m_double] then None
  else Some (PSet neg (set_items (length body) body)).

(** [fnmatch.translate], as in [GlobModel.glob_parse]; no star is left here *)
Fixpoint translate (fuel : nat) (l : text) : option (list ptok) :=
  match fuel with
  | 0 => Some []
  | S fuel =>
      match l with
      | [] => Some []
      | c :: l' =>
          let more t r := match t, translate fuel r with Some t, Some p => Some (t :: p) | _, _ => None end in
          if is c c_quest then more (Some PAny) l'
          else if is c c_open then
            match parse_set l' with
            | Some (neg, body, rest) => more (set_tok neg body) rest
            | None => more (Some (PChar c)) l'
            end
          else more (Some (PChar c)) l'
      end
  end.

Definition prepare_pattern (pattern : text) : option (list ptok) :=
  let p := normpath pattern in
  let r := sub_stars (sub_fields (length p) p) in
  translate (length r) r.

(** the class [_0-9A-Za-z] *)
Definition between (a c b : ascii) : bool := ascii_leb a c && ascii_leb c b.
Definition is_word (c : ascii) : bool :=
  is c "_"%char || between "0"%char c "9"%char || between "A"%char c "Z"%char || between "a"%char c "z"%char.

(** a lazy repetition: the rest of the expression is tried first; the result is the
    text repeated and the groups of the rest *)
Fixpoint lazy (ok : ascii -> bool) (more : text -> option (list text)) (acc s : text) : option (text * list text) :=
  match more s with
  | Some vs => Some (acc, vs)
  | None => match s with
            | c :: s' => if ok c then lazy ok more (acc ++ [c]) s' else None
            | [] => None
            end
  end.

(** matching, with the order of the choices of [re]; the result is the values of
    the groups *)
Fixpoint pmatch (p : list ptok) (s : text) : option (list text) :=
  match p with
  | [] => match s with [] => Some [] | _ => None end
  | PChar c :: p' => match s with d :: s' => if is c d then pmatch p' s' else None | [] => None end
  | PAny :: p' => match s with _ :: s' => pmatch p' s' | [] => None end
  | PSet neg items :: p' =>
      match s with d :: s' => if xorb neg (in_items d items) then pmatch p' s' else None | [] => None end
  | PField :: p' =>
      match s with
      | c :: s' => if is_word c then option_map (fun r => fst r :: snd r) (lazy is_word (pmatch p') [c] s') else None
      | [] => None
      end
  | PStar :: p' => option_map snd (lazy (fun c => negb (is c c_slash)) (pmatch p') [] s)
  | PDouble :: p' => option_map snd (lazy (fun _ => true) (pmatch p') [] s)
  end.

(** ** format strings: [string.Formatter().parse] *)
Inductive fitem : Type := FLit (c : ascii) | FField (name : text).

(** the text up to ']' (included), and the rest *)
Fixpoint skip_bracket (l : text) : text * text :=
  match l with
  | [] => ([], [])
  | c :: l' => if is c c_close then ([], l) else let '(a, b) := skip_bracket l' in (c :: a, b)
  end.

(** after '{': the name of the field and what follows the field. A format or a
    conversion raises ValueError here or in [_get_fields] (utils.py:536-537) *)
Fixpoint field_name (fuel : nat) (l : text) : res (text * text) :=
  match fuel with
  | 0 => Err ValueError
  | S fuel =>
      match l with
      | [] => Err ValueError
      | c :: l =>
          if is c c_lbrace then Err ValueError
          else if is c c_rbrace then Ok ([], l)
          else if is c "!"%char then Err ValueError
          else if is c ":"%char then match l with d :: l' => if is d c_rbrace then Ok ([], l') else Err ValueError | [] => Err ValueError end
          else if is c c_open then
            let '(a, b) := skip_bracket l in
            ' p <- field_name fuel b ;; Ok (c :: a ++ fst p, snd p)
          else ' p <- field_name fuel l ;; Ok (c :: fst p, snd p)
      end
  end.

Fixpoint fparse (fuel : nat) (l : text) : res (list fitem) :=
  match fuel with
  | 0 => Ok []
  | S fuel =>
      match l with
      | [] => Ok []
      | c :: l =>
          if is c c_lbrace then
            match l with
            | d :: l' => if is d c_lbrace then r <- fparse fuel l' ;; Ok (FLit c :: r)
                         else ' p <- field_name (length l) l ;; r <- fparse fuel (snd p) ;; Ok (FField (fst p) :: r)
            | [] => Err ValueError
            end
          else if is c c_rbrace then
            match l with
            | d :: l' => if is d c_rbrace then r <- fparse fuel l' ;; Ok (FLit c :: r) else Err ValueError
            | [] => Err ValueError
            end
          else r <- fparse fuel l ;; Ok (FLit c :: r)
      end
  end.
Definition fmt (l : text) : res (list fitem) := fparse (length l) l.

Definition fields_of (l : list fitem) : list text :=
  flat_map (fun i => match i with FLit _ => [] | FField n => [n] end) l.

(** utils.py:529-544 [_get_fields]: a name has to start with a letter or '_' *)
Definition is_first (c : ascii) : bool := is c "_"%char || between "a"%char c "z"%char || between "A"%char c "Z"%char.
Definition get_fields (l : text) : res (list text) :=
  l <- fmt l ;;
  mapM (fun n => match n with
                 | [] => Err ValueError
                 | c :: _ => if is_first c then Ok n else Err ValueError
                 end) (fields_of l).

(** the last value given to a field: [dict(zip(keys, values))] *)
Fixpoint lookup (n : text) (l : list (text * text)) : option text :=
  match l with
  | [] => None
  | (m, v) :: l => match lookup n l with Some w => Some w | None => if teqb m n then Some v else None end
  end.

(** [tpl.format( **d)]; a name with '.' or '[' would reach into the value, not
    modelled *)
Definition format (tpl : text) (d : list (text * text)) : res text :=
  l <- fmt tpl ;;
  l <- mapM (fun i => match i with
                      | FLit c => Ok [c]
                      | FField n => if existsb (fun c => is c c_dot || is c c_open) n then Err OtherException
                                    else of_option KeyError (lookup n d)
                      end) l ;;
  Ok (concat l).

(** utils.py:488-502 [tags_from_path]: the pairs yielded, and the exception that
    ends the iteration, if any *)
Fixpoint yield_tags (p : list ptok) (keys : list text) (tpls : list text) (names : list text) : list (text * list text) * option exn :=
  match names with
  | [] => ([], None)
  | name :: names =>
      match pmatch p (normpath name) with
      | None => yield_tags p keys tpls names
      | Some values =>
          match mapM (fun tpl => format tpl (combine keys values)) tpls with
          | Err e => ([], Some e)
          | Ok tags => let '(l, e) := yield_tags p keys tpls names in ((name, tags) :: l, e)
          end
      end
  end.

Definition tags_from_path (names : list text) (pattern : text) (tpls : list text) : list (text * list text) * option exn :=
  match (keys <- get_fields pattern ;;
         ' _ <- mapM (fun tpl => fs <- get_fields tpl ;; check (forallb (fun f => existsb (teqb f) keys) fs) ValueError) tpls ;;
         p <- of_option OtherException (prepare_pattern pattern) ;;
         Ok (p, keys)) with
  | Err e => ([], Some e)
  | Ok (p, keys) => yield_tags p keys tpls names
  end.
