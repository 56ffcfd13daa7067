(** Model of the reading of calibration tables: [np.loadtxt] as calibrations.py calls it
    (lines 111, 137-140) and the header of Phoenix files (131-135).

    Simplifications: characters are 8-bit; [special] stands for the words inf and nan;
    numbers with underscores or in hexadecimal and negative numbers of channels are
    outside. Where the versions of numpy raise different exceptions the one of the recent
    versions is taken. *)
From Coq Require Import QArith.
From Verif Require Import Base Arith PathModel DataModel CalModel.
Open Scope nat_scope.

Definition c_hash : ascii := "#". Definition c_comma : ascii := ",".
(** the part before the first [c] *)
Fixpoint upto (c : ascii) (l : text) : text :=
  match l with [] => [] | x :: r => if is x c then [] else x :: upto c r end.
(** [strip('\r\n')] *)
Definition is_eol (c : ascii) : bool := let n := nat_of_ascii c in (n =? 10) || (n =? 13).
Fixpoint skip_eol (l : text) : text := match l with c :: r => if is_eol c then skip_eol r else l | [] => [] end.
Definition strip_eol (l : text) : text := rev (skip_eol (rev (skip_eol l))).
(** [split] *)
Fixpoint split_by (f : ascii -> bool) (l : text) : list text :=
  match l with
  | [] => [[]]
  | c :: r => if f c then [] :: split_by f r else match split_by f r with w :: ws => (c :: w) :: ws | [] => [[c]] end
  end.
Definition nonempty {X} (l : list X) : bool := match l with [] => false | _ => true end.
Definition fields (delim : option ascii) (line : text) : list text :=
  let l := strip_eol (upto c_hash line) in
  match delim with
  | None => filter nonempty (split_by is_space l)
  | Some d => match l with [] => [] | _ => split_by (fun c => is c d) l end
  end.

(** [float], for decimal numbers *)
Fixpoint digits (l : text) : list Z * text :=
  match l with
  | c :: r => if is_digit c then let '(ds, r) := digits r in ((Z.of_nat (nat_of_ascii c) - 48)%Z :: ds, r) else ([], l)
  | [] => ([], [])
  end.
Definition value (ds : list Z) : Z := fold_left (fun a d => 10 * a + d)%Z ds 0%Z.
Definition sign (l : text) : bool * text :=
  match l with c :: r => if is c "-" then (true, r) else if is c "+" then (false, r) else (false, l) | [] => (false, []) end.
Definition exponent (l : text) : option Z :=
  match l with
  | [] => Some 0%Z
  | c :: r =>
      if is c "e" || is c "E" then
        let '(neg, r) := sign r in
        match digits r with
        | (d :: ds, []) => Some (if neg then - value (d :: ds) else value (d :: ds))%Z
        | _ => None
        end
      else None
  end.
Definition number_of (l : text) : option Q :=
  let '(neg, l) := sign (strip l) in
  let '(a, l) := digits l in
  let '(b, l) := match l with c :: r => if is c c_dot then digits r else ([], l) | [] => ([], []) end in
  match a ++ b with
  | [] => None
  | ds => option_map (fun e => ((if neg then -1 # 1 else 1 # 1) * inject_Z (value ds) * Qpower (10 # 1) (e - Z.of_nat (length b)))%Q) (exponent l)
  end.
(** [int] *)
Definition int_of (l : text) : option Z :=
  let '(neg, l) := sign (strip l) in
  match digits l with
  | (d :: ds, []) => Some (if neg then - value (d :: ds) else value (d :: ds))%Z
  | _ => None
  end.

Section Load.
Context {A : Arith} (of_Q : Q -> num A) (special : text -> option (num A)).
Definition cell (t : text) : option (num A) :=
  match number_of t with Some q => Some (of_Q q) | None => special t end.

(** [np.loadtxt(lines, delimiter=delim, skiprows=skip, usecols=range(n))]: the rows *)
Definition loadtxt (delim : option ascii) (skip : nat) (usecols : option nat) (lines : list text) : res (list (list (num A))) :=
  let rows := filter nonempty (map (fields delim) (skipn skip lines)) in
  rows <- match usecols with
          | Some n => mapM (fun r => ' _ <- check (n <=? length r) ValueError ;; Ok (firstn n r)) rows
          | None => ' _ <- check (forallb (fun r => length r =? length (hd [] rows)) rows) ValueError ;; Ok rows
          end ;;
  mapM (mapM (fun t => of_option ValueError (cell t))) rows.

(** calibrations.py:75-76, 111: [table[:, 0]], [table[:, 1]], [table[:, 2]]; an array of
    less than two rows has not two dimensions *)
Definition triple (row : list (num A)) : res (num A * num A * num A) :=
  match row with a :: b :: c :: _ => Ok (a, b, c) | _ => Err IndexError end.
Definition load3 (lines : list text) : res (list (num A * num A * num A)) :=
  table <- loadtxt None 0 None lines ;;
  ' _ <- check (2 <=? length table) IndexError ;;
  mapM triple table.

(** calibrations.py:144: [data[:, 2::2] + 1j * data[:, 3::2]] *)
Fixpoint pairs (l : list (num A)) : list (num A * num A) :=
  match l with a :: b :: l => (a, b) :: pairs l | _ => [] end.
Definition phoenix_row (l : list (num A)) : num A * num A * list (num A * num A) :=
  (nth 0 l (nzero A), nth 1 l (nzero A), pairs (skipn 2 l)).
(** calibrations.py:115-149 [phoenix], from the lines of the file *)
Definition phoenix_file (lines : list text) (level : num A) : res (list (num A -> res (num A * num A))) :=
  let header := filter nonempty (map strip (split_by (fun c => is c c_comma) (strip (hd [] lines)))) in
  match header with
  | [_; _; _; nb] =>
      n <- of_option ValueError (int_of nb) ;;
      ' _ <- check (0 <=? n)%Z ValueError ;;
      let n := Z.to_nat n in
      rows <- match loadtxt (Some c_comma) 1 (Some (2 + 2 * n)) lines with
              | Ok rows => Ok rows
              | Err _ => loadtxt (Some c_comma) 2 (Some (2 + 2 * n)) lines
              end ;;
      ' _ <- check (negb (length rows =? 1)) IndexError ;;
      phoenix n (map phoenix_row rows) level
  | _ => Err ValueError
  end.
End Load.
