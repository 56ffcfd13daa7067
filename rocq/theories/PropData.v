(** Data files and commands: properties C72, C74, C83. *)
From Verif Require Import Base PathModel DataModel SpecData DataProofs.

(** C72: a name is read as its components between slashes, without the empty ones
    and "."; it is absolute when it starts with a slash. *)
Theorem C72_names : forall (s : text) (p : path), parse_path s = p <-> means s p.
Proof. exact parse_means. Qed.
Print Assumptions C72_names.

(** C72: two spellings of a name designate the same file. *)
Theorem C72_spelling :
  forall (pkg cwd : path) (fs : fsys) (filename filename' dirname dirname' : text) (p q : path),
  means filename p -> means filename' p -> means dirname q -> means dirname' q ->
  get_data_file pkg cwd fs filename dirname = get_data_file pkg cwd fs filename' dirname'.
Proof. exact lookup_spelling. Qed.
Print Assumptions C72_spelling.

Example C72_names_example :
  means (txt "./a//b/.") (mkPath false [txt "a"; txt "b"]) /\ means (txt "/a/../.b/") (mkPath true [txt "a"; txt ".."; txt ".b"]) /\
  ~ means (txt "a/./b") (mkPath false [txt "a"; txt "."; txt "b"]).
Proof.
  rewrite <- !parse_means. vm_compute. split; [reflexivity|]. split; [reflexivity|discriminate].
Qed.

(** C72: the file of the local data directory if it is there, otherwise the packaged
    one, otherwise ValueError. *)
Theorem C72_lookup :
  forall (pkg cwd : path) (fs : fsys) (filename dirname : text),
  consistent fs -> below_name filename ->
  get_data_file pkg cwd fs filename dirname =
    if p_exists fs (cwd // txt "data" // dirname // filename) then Ok (cwd // txt "data" // dirname // filename)
    else if p_exists fs (pkg // txt "data" // dirname // filename) then Ok (pkg // txt "data" // dirname // filename)
    else Err ValueError.
Proof. exact lookup_consistent. Qed.
Print Assumptions C72_lookup.

(** C72: an absolute file name is returned as it is when it exists, whatever the
    directories contain. *)
Theorem C72_absolute :
  forall (pkg cwd : path) (fs : fsys) (filename dirname : text),
  p_abs (parse_path filename) = true ->
  get_data_file pkg cwd fs filename dirname =
    if p_exists fs (parse_path filename) then Ok (parse_path filename) else Err ValueError.
Proof. exact lookup_absolute. Qed.
Print Assumptions C72_absolute.

(** C72: in any file system, even one that has things below plain files, the result
    exists and is one of the two candidates. *)
Theorem C72_exists :
  forall (pkg cwd : path) (fs : fsys) (filename dirname : text) (p : path),
  get_data_file pkg cwd fs filename dirname = Ok p <->
  (p_is_dir fs (cwd // txt "data" // dirname) = true /\
   p_exists fs (cwd // txt "data" // dirname // filename) = true /\ p = cwd // txt "data" // dirname // filename) \/
  ((p_is_dir fs (cwd // txt "data" // dirname) = false \/ p_exists fs (cwd // txt "data" // dirname // filename) = false) /\
   p_exists fs (pkg // txt "data" // dirname // filename) = true /\ p = pkg // txt "data" // dirname // filename).
Proof. exact lookup_ok. Qed.
Print Assumptions C72_exists.

(** a package in /lib/rzb and a current directory /home *)
Definition s_pkg : path := mkPath true [txt "lib"; txt "rzb"].
Definition s_cwd : path := mkPath true [txt "home"].
Definition s_dirs : list path := map (fun s => parse_path (txt s))
  ["/"; "/lib"; "/lib/rzb"; "/lib/rzb/data"; "/lib/rzb/data/cal"; "/home"; "/home/data"; "/home/data/cal"]%string.
Definition s_files : list path := map (fun s => parse_path (txt s))
  ["/lib/rzb/data/cal/a.txt"; "/lib/rzb/data/cal/b.txt"; "/home/data/cal/b.txt"; "/home/c.txt"]%string.
Definition s_fs : fsys := fun p =>
  if existsb (path_eqb p) s_dirs then Some true else if existsb (path_eqb p) s_files then Some false else None.
Lemma s_consistent : consistent s_fs.
Proof.
  intros a parts n H Hn. assert (Hin : In (mkPath a parts) (s_dirs ++ s_files)).
  { unfold s_fs in H. destruct (existsb (path_eqb (mkPath a parts)) s_dirs) eqn:E1.
    - apply existsb_exists in E1 as (x & Hx & E). apply path_eqb_eq in E. subst x. apply in_or_app. auto.
    - destruct (existsb (path_eqb (mkPath a parts)) s_files) eqn:E2; [|congruence].
      apply existsb_exists in E2 as (x & Hx & E). apply path_eqb_eq in E. subst x. apply in_or_app. auto. }
  assert (G : forall p, In p (s_dirs ++ s_files) -> forall n, n < length (p_parts p) -> s_fs (mkPath (p_abs p) (firstn n (p_parts p))) = Some true).
  { intros p Hp. repeat (destruct Hp as [<-|Hp];
      [intros m Hm; vm_compute in Hm; do 6 (destruct m as [|m]; [first [vm_compute; reflexivity|exfalso; lia]|]); exfalso; lia|]). destruct Hp. }
  apply (G _ Hin n Hn).
Qed.
Example C72_example :
  consistent s_fs /\ below_name (txt "b.txt") /\
  get_data_file s_pkg s_cwd s_fs (txt "b.txt") (txt "cal") = Ok (parse_path (txt "/home/data/cal/b.txt")) /\
  get_data_file s_pkg s_cwd s_fs (txt "a.txt") (txt "cal") = Ok (parse_path (txt "/lib/rzb/data/cal/a.txt")) /\
  get_data_file s_pkg s_cwd s_fs (txt "d.txt") (txt "cal") = Err ValueError /\
  get_data_file s_pkg s_cwd s_fs (txt "/home/c.txt") (txt "cal") = Ok (parse_path (txt "/home/c.txt")).
Proof. split; [exact s_consistent|]. split; [split; [reflexivity|discriminate]|]. vm_compute. auto. Qed.

(** C83: creating the local directory adds exactly that directory and the ones above
    it, and changes nothing else. *)
Theorem C83_created :
  forall (pkg cwd : path) (fs fs' : fsys) (target : text) (p : path),
  consistent fs -> path_action pkg cwd fs true target = Ok (fs', Created p) ->
  p = cwd // txt "data" // target /\ p_exists fs p = false /\ consistent fs' /\
  (forall q, fs q <> None -> fs' q = fs q) /\ (forall q, above q p -> fs' q = Some true) /\
  (forall q, ~ above q p -> fs' q = fs q).
Proof.
  intros pkg cwd fs fs' target p Hc H. destruct (create_consistent pkg cwd fs target fs' p Hc H) as (H1 & H2).
  destruct (create_inv pkg cwd fs target fs' p H) as (H3 & H4 & _ & H5 & H6). unfold p_exists. rewrite H4. auto 10.
Qed.
Print Assumptions C83_created.

(** C83: it is created exactly when nothing has its name and no file is among the
    paths above it; with such a file it is an error, and a name in use is reported. *)
Theorem C83_cases :
  forall (pkg cwd : path) (fs : fsys) (target : text), let p := cwd // txt "data" // target in
  (path_action pkg cwd fs true target = Ok (fs, Exists p) <-> p_exists fs p = true) /\
  ((exists fs', path_action pkg cwd fs true target = Ok (fs', Created p)) <-> p_exists fs p = false /\ forall q, above q p -> fs q <> Some false) /\
  (forall x, path_action pkg cwd fs true target = Err x <-> x = OtherException /\ p_exists fs p = false /\ exists q, above q p /\ fs q = Some false).
Proof. exact create_cases. Qed.
Print Assumptions C83_cases.

(** C83: afterwards it is the directory in use, and creating it again changes nothing. *)
Theorem C83_in_use :
  forall (pkg cwd : path) (fs fs' : fsys) (target : text) (p : path),
  path_action pkg cwd fs true target = Ok (fs', Created p) ->
  p_is_dir fs' p = true /\ data_path pkg cwd fs' target = p /\
  path_action pkg cwd fs' true target = Ok (fs', Exists p) /\
  path_action pkg cwd fs' false target = Ok (fs', Shown p).
Proof. intros pkg cwd fs fs' target p. exact (created_in_use pkg cwd fs target fs' p). Qed.
Print Assumptions C83_in_use.

(** C83: every file found before is still found, at the same place. *)
Theorem C83_lookup :
  forall (pkg cwd : path) (fs fs' : fsys) (target : text) (p : path) (filename : text) (q : path),
  consistent fs -> path_action pkg cwd fs true target = Ok (fs', Created p) -> below_name filename ->
  get_data_file pkg cwd fs filename target = Ok q -> get_data_file pkg cwd fs' filename target = Ok q.
Proof. intros pkg cwd fs fs' target p f q. exact (created_lookup pkg cwd fs target fs' p f q). Qed.
Print Assumptions C83_lookup.

(** C83: without the option nothing is created and the directory in use is shown. *)
Theorem C83_shown :
  forall (pkg cwd : path) (fs fs' : fsys) (target : text) (s : said),
  path_action pkg cwd fs false target = Ok (fs', s) -> fs' = fs /\ s = Shown (data_path pkg cwd fs target).
Proof. intros pkg cwd fs fs' target s. exact (shown pkg cwd fs target fs' s). Qed.
Print Assumptions C83_shown.

Definition s_empty : path := mkPath true [txt "lib"].
Example C83_example :
  consistent s_fs /\ (exists fs', path_action s_pkg s_empty s_fs true (txt "cal") = Ok (fs', Created (parse_path (txt "/lib/data/cal"))) /\
    fs' (parse_path (txt "/lib/data")) = Some true /\ fs' (parse_path (txt "/lib/data/b.txt")) = None) /\
  data_path s_pkg s_empty s_fs (txt "cal") = parse_path (txt "/lib/rzb/data/cal") /\
  get_data_file s_pkg s_empty s_fs (txt "a.txt") (txt "cal") = Ok (parse_path (txt "/lib/rzb/data/cal/a.txt")) /\
  path_action s_pkg (mkPath true [txt "home"; txt "c.txt"]) s_fs true (txt "cal") = Err OtherException.
Proof.
  split; [exact s_consistent|]. split.
  - eexists. split; [reflexivity|]. split; vm_compute; reflexivity.
  - vm_compute. auto.
Qed.

(** C74: the command list is sorted without duplicates and contains exactly the
    built-in commands and the plugins. *)
Theorem C74_list :
  forall (C : Type) (commands : dict C) (entries : list (string * res C)) (extra : dict C),
  extra_commands entries = Ok extra ->
  StronglySorted (fun a b => str_ltb a b = true) (list_commands commands extra) /\
  (forall n, In n (list_commands commands extra) <-> In n (dkeys commands) \/ In n (map fst entries)).
Proof. exact @list_all. Qed.
Print Assumptions C74_list.

(** C74: a plugin shadows a built-in of the same name, the last plugin of a name
    shadows the others; other names are the built-ins. A plugin whose truth value is
    false does not shadow. *)
Theorem C74_shadow :
  forall (C : Type) (truthy : C -> bool) (commands : dict C) (entries : list (string * res C)) (extra : dict C) (n : string),
  extra_commands entries = Ok extra ->
  (forall c, last_entry entries n c -> truthy c = true -> get_command truthy commands extra n = Some c) /\
  (~ In n (map fst entries) -> get_command truthy commands extra n = dget n commands) /\
  (forall c, last_entry entries n c -> truthy c = false -> get_command truthy commands extra n = dget n commands).
Proof. exact @get_command_spec. Qed.
Print Assumptions C74_shadow.

(** C74: exactly the listed commands are found (commands have a true truth value). *)
Theorem C74_found :
  forall (C : Type) (truthy : C -> bool) (commands : dict C) (entries : list (string * res C)) (extra : dict C) (n : string),
  (forall c, truthy c = true) -> extra_commands entries = Ok extra ->
  (In n (list_commands commands extra) <-> exists c, get_command truthy commands extra n = Some c).
Proof. exact @list_get. Qed.
Print Assumptions C74_found.

(** C74: the command group exists exactly when every plugin loads. *)
Theorem C74_loads :
  forall (C : Type) (entries : list (string * res C)),
  (exists extra, extra_commands entries = Ok extra) <-> (forall e, In e entries -> exists c, snd e = Ok c).
Proof. exact @extra_iff. Qed.
Print Assumptions C74_loads.

Definition s_entries : list (string * res nat) := [("plot", Ok 7); ("path", Ok 8); ("plot", Ok 9)]%string.
Definition s_commands : dict nat := [("version", 1); ("path", 2)]%string.
Example C74_example :
  exists extra, extra_commands s_entries = Ok extra /\
  list_commands s_commands extra = ["path"; "plot"; "version"]%string /\
  get_command (fun _ => true) s_commands extra "path" = Some 8 /\
  get_command (fun _ => true) s_commands extra "plot" = Some 9 /\
  get_command (fun _ => true) s_commands extra "version" = Some 1 /\
  last_entry s_entries "plot" 9 /\ extra_commands [("plot"%string, Err ValueError : res nat)] = Err ValueError.
Proof.
  eexists. split; [reflexivity|]. repeat (split; [reflexivity|]). split; [|reflexivity].
  exists [("plot", Ok 7); ("path", Ok 8)]%string, []. split; [reflexivity|intros []].
Qed.
