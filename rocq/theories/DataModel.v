(** Model of src/razorback/data.py and src/razorback/cli.py. *)
From Verif Require Import Base PathModel.

(** ** pathlib (posix) *)
Record path : Type := mkPath { p_abs : bool; p_parts : list text }.

(** [Path(s)]: empty components and "." are dropped. Simplification: exactly two
    initial slashes count as one *)
Definition parse_path (s : text) : path :=
  mkPath (match s with c :: _ => is c c_slash | [] => false end)
         (filter (fun p => negb (teqb p []) && negb (teqb p [c_dot])) (split_slash s)).
(** [p / q]: an absolute right-hand side replaces the left-hand side *)
Definition path_join (p q : path) : path := if p_abs q then q else mkPath (p_abs p) (p_parts p ++ p_parts q).
Notation "p // s" := (path_join p (parse_path s)) (at level 40, left associativity).

(** a file system: what is at a path, [Some true] for a directory *)
Definition fsys : Type := path -> option bool.
Definition p_exists (fs : fsys) (p : path) : bool := match fs p with Some _ => true | None => false end.
Definition p_is_dir (fs : fsys) (p : path) : bool := match fs p with Some b => b | None => false end.

(** ** data.py. Simplification: no symbolic links and no "..", so that [resolve] and
    [absolute] change nothing on these absolute paths *)
Section Data.
Variables (pkg cwd : path).    (* directory of the package, current directory *)

Definition t_data : text := txt "data".

(** data.py:8-11 [default_data_path] *)
Definition default_data_path (target : text) : path := pkg // t_data // target.
(** data.py:14-17 [local_data_path] *)
Definition local_data_path (target : text) : path := cwd // t_data // target.
(** data.py:20-25 [data_path] *)
Definition data_path (fs : fsys) (target : text) : path :=
  let local := cwd // t_data // target in
  if p_is_dir fs local then local else default_data_path target.

(** data.py:28-43 [get_data_file] *)
Definition get_data_file (fs : fsys) (filename dirname : text) : res path :=
  let dirs := [data_path fs dirname; default_data_path dirname] in
  of_option ValueError (find (p_exists fs) (map (fun d => d // filename) dirs)).

(** ** cli.py:55-64 [path_action] *)

(** [p.mkdir(parents=True)] for a path that does not exist: the missing ancestors
    are created; an ancestor that is not a directory is an error *)
Definition path_eqb (p q : path) : bool :=
  Bool.eqb (p_abs p) (p_abs q) && (if list_eq_dec (list_eq_dec ascii_dec) (p_parts p) (p_parts q) then true else false).
Definition ancestors (p : path) : list path :=
  map (fun n => mkPath (p_abs p) (firstn n (p_parts p))) (seq 0 (length (p_parts p))).
Definition mkdir (fs : fsys) (p : path) : res fsys :=
  ' _ <- check (forallb (fun a => match fs a with Some false => false | _ => true end) (ancestors p)) OtherException ;;
  Ok (fun q => if existsb (path_eqb q) (p :: ancestors p) then Some true else fs q).

Inductive said : Type := Shown (p : path) | Exists (p : path) | Created (p : path).

Definition path_action (fs : fsys) (create : bool) (target : text) : res (fsys * said) :=
  if negb create then Ok (fs, Shown (data_path fs target))
  else
    let p := local_data_path target in
    if p_exists fs p then Ok (fs, Exists p)
    else fs' <- mkdir fs p ;; Ok (fs', Created p).
End Data.

(** ** cli.py:9-21 [PluginGroup] *)
Section Plugins.
Context {C : Type}.
Variable truthy : C -> bool.               (* Python's [bool(command)] *)

(** cli.py:11-14: [load] of an entry point may raise *)
Definition extra_commands (entries : list (string * res C)) : res (dict C) :=
  foldM (fun d e => c <- snd e ;; Ok (dset (fst e) c d)) [] entries.

(** click.Group.list_commands is [sorted(self.commands)] *)
Definition click_list (commands : dict C) : list string := stable_sort str_ltb (dkeys commands).
(** cli.py:17-18 [list_commands] *)
Definition list_commands (commands extra : dict C) : list string :=
  stable_sort str_ltb (dedup String.eqb (click_list commands ++ dkeys extra)).
(** cli.py:20-21 [get_command] *)
Definition get_command (commands extra : dict C) (name : string) : option C :=
  match dget name extra with
  | Some c => if truthy c then Some c else dget name commands
  | None => dget name commands
  end.
End Plugins.
