(** Model of src/razorback/calibrations.py. *)
From Verif Require Import Base Arith PathModel DataModel.

(** ** Text *)
(** white space, the same for [str.strip] and for [\s]. Simplification: characters
    are 8-bit *)
Definition is_space (c : ascii) : bool :=
  let n := nat_of_ascii c in
  ((9 <=? n) && (n <=? 13)) || ((28 <=? n) && (n <=? 32)) || (n =? 133) || (n =? 160).
Fixpoint lstrip (l : text) : text :=
  match l with c :: r => if is_space c then lstrip r else l | [] => [] end.
Definition strip (l : text) : text := rev (lstrip (rev (lstrip l))).
Definition lower_char (c : ascii) : ascii :=
  let n := nat_of_ascii c in if (65 <=? n) && (n <=? 90) then ascii_of_nat (n + 32) else c.
Definition lower (l : text) : text := map lower_char l.

Fixpoint prefix_of (p l : text) : option text :=
  match p, l with
  | [], _ => Some l
  | a :: p, b :: l => if is a b then prefix_of p l else None
  | _, [] => None
  end.
(** [re.match(r'w1\s+w2', l)] for words without white space *)
Definition match_words (w1 w2 l : text) : bool :=
  match prefix_of w1 l with
  | Some (c :: r) => is_space c && match prefix_of w2 (lstrip r) with Some _ => true | None => false end
  | _ => false
  end.

(** calibrations.py:55-62 [start_stop]; the marks are 'Chopper On', 'Chopper Off' *)
Definition mark_line (on : bool) (l : text) : bool :=
  match_words (txt "chopper") (txt (if on then "on" else "off")) (strip (lower l)).
Definition blank (l : text) : bool := match strip l with [] => true | _ => false end.
Fixpoint first_index {X} (f : X -> bool) (l : list X) (i : nat) : option nat :=
  match l with [] => None | x :: l => if f x then Some i else first_index f l (S i) end.
Definition start_stop (lines : list text) (on : bool) : res (nat * option nat) :=
  start <- of_option StopIteration (first_index (mark_line on) lines 1) ;;
  Ok (start, first_index blank (skipn start lines) start).
(** [lines[start:stop]] *)
Definition section (lines : list text) (on : bool) : res (list text) :=
  ' (start, stop) <- start_stop lines on ;;
  Ok (match stop with
      | Some stop => firstn (stop - start) (skipn start lines)
      | None => skipn start lines end).

(** calibrations.py:64-69 [version] with the default pattern [.*(MFS\d\d).*]: the last
    occurrence; [Path.stem] *)
Definition is_digit (c : ascii) : bool := let n := nat_of_ascii c in (48 <=? n) && (n <=? 57).
Fixpoint mfs (l : text) : option text :=
  match l with
  | [] => None
  | c :: r =>
      match mfs r with
      | Some v => Some v
      | None => match prefix_of (txt "MFS") l with
                | Some (a :: b :: _) => if is_digit a && is_digit b then Some (txt "MFS" ++ [a; b]) else None
                | _ => None end
      end
  end.
Fixpoint cut_dot (l : text) : text * option text :=    (* before and after the last dot *)
  match l with
  | [] => ([], None)
  | c :: r =>
      match cut_dot r with
      | (a, Some b) => (c :: a, Some b)
      | (a, None) => if is c c_dot then ([], Some r) else (c :: a, None)
      end
  end.
Definition stem (name : text) : text :=
  match cut_dot name with
  | (c :: a, Some (_ :: _)) => c :: a
  | _ => name
  end.

(** ** scipy.interpolate.interp1d, linear, complex values, default bounds_error *)
Section Interp.
Context {A : Arith}.
Notation cplx := (num A * num A)%type.

(** numpy.searchsorted(x, f), side left *)
Fixpoint searchsorted (xs : list (num A)) (f : num A) : nat :=
  match xs with x :: xs => if nltb A x f then S (searchsorted xs f) else 0 | [] => 0 end.

Definition line (p q : num A * cplx) (f : num A) : cplx :=
  let dx := nsub A (fst q) (fst p) in
  let go a b := nadd A (nmul A (ndiv A (nsub A b a) dx) (nsub A f (fst p))) a in
  (go (fst (snd p)) (fst (snd q)), go (snd (snd p)) (snd (snd q))).

Definition interp1d (pts : list (num A * cplx)) (f : num A) : res cplx :=
  let pts := stable_sort (fun p q => nltb A (fst p) (fst q)) pts in
  match pts with
  | [] => Err ValueError
  | p0 :: _ =>
      let n := length pts in
      let last := nth (n - 1) pts p0 in
      ' _ <- check (negb (nltb A f (fst p0))) ValueError ;;
      ' _ <- check (negb (nltb A (fst last) f)) ValueError ;;
      let hi := Nat.max 1 (Nat.min (searchsorted (map fst pts) f) (n - 1)) in
      Ok (line (nth (hi - 1) pts p0) (nth hi pts p0) f)
  end.

(** ** calibrations.py:23-112 [metronix] *)
Variable cal_mp : num A -> num A -> num A -> cplx.   (* lines 71-72: frequency, module, phase *)
Variable angle : num A -> num A -> num A.            (* np.angle(f + 1j * alpha, deg=True) *)
Variable loadtxt : list text -> res (list (num A * num A * num A)).   (* first three columns *)
Variable version_of : text -> option text.           (* re.match(version_pattern, name) *)

(** calibrations.py:74-95 [calibration]; with less than two rows numpy's table has not
    two dimensions *)
Definition cal_points (table : list (num A * num A * num A)) : list (num A * cplx) :=
  map (fun r => match r with (f, m, p) => (f, cal_mp f m p) end) table.
Definition calibration (table : list (num A * num A * num A)) (name : text) (chopper : bool)
    (alpha_map : list (text * num A)) : res (num A -> res cplx) :=
  ' _ <- check (2 <=? length table) IndexError ;;
  vers <- of_option ValueError (version_of (stem name)) ;;
  alpha <- of_option ValueError (option_map snd (find (fun e => teqb (fst e) vers) alpha_map)) ;;
  match table with
  | (freq_min, mod_min, _) :: _ =>
      Ok (fun f =>
            if nltb A f freq_min && chopper
            then Ok (cal_mp f mod_min (angle f alpha))
            else interp1d (cal_points table) f)
  | [] => Err IndexError
  end.

(** calibrations.py:97-112; [read] gives the lines of a file *)
Variable read : path -> res (list text).
Definition metronix (pkg cwd : path) (fs : fsys) (filename : text) (rate limit : num A)
    (alpha_map : list (text * num A)) : res (num A -> res cplx) :=
  p <- get_data_file pkg cwd fs filename (txt "metronix_calibration") ;;
  lines <- read p ;;
  let chopper := nleb A rate limit in
  sec <- section lines chopper ;;
  table <- loadtxt sec ;;
  calibration table (List.last (p_parts p) []) chopper alpha_map.

(** ** calibrations.py:115-149 [phoenix], from the parsed file: number of channels,
    and rows (frequency, level, complex values). When there is no row of the level,
    the message of the assertion has a bad format and raises ValueError *)
Definition phoenix (n : nat) (rows : list (num A * num A * list cplx)) (level : num A) : res (list (num A -> res cplx)) :=
  let data := filter (fun r => neqb A (snd (fst r)) level) rows in
  ' _ <- check (negb (length data =? 0)) ValueError ;;
  Ok (map (fun i => interp1d (map (fun r => (fst (fst r), nth i (snd r) (nzero A, nzero A))) data)) (seq 0 n)).
End Interp.
