(** Calibration functions: properties C73, C84. *)
From Coq Require Import QArith Qcanon.
From Verif Require Import Base Arith PathModel DataModel CalModel SpecCal CalProofs InterpProofs OrdLaws.
Open Scope nat_scope.

(** C73: the calibration is read in the chopper-on section exactly when the rate is
    at most the limit, from the lines between the mark and the next blank line; below
    the first tabulated frequency it is the extrapolation exactly in chopper-on mode;
    everywhere else it is the tabulated function. *)
Theorem C73_selection :
  forall (cal_mp : Qc -> Qc -> Qc -> cq) (angle : Qc -> Qc -> Qc) (loadtxt : list text -> res (list (Qc * Qc * Qc)))
    (version_of : text -> option text) (read : path -> res (list text)) (pkg cwd : path) (fs : fsys)
    (filename : text) (rate limit : Qc) (alphas : list (text * Qc)) (cal : Qc -> res cq),
  metronix (A := QA) cal_mp angle loadtxt version_of read pkg cwd fs filename rate limit alphas = Ok cal ->
  exists p lines on body table st v alpha f0 m0,
    get_data_file pkg cwd fs filename (txt "metronix_calibration") = Ok p /\ read p = Ok lines /\
    (on = true <-> (rate <= limit)%Qc) /\ section_of on lines body /\
    loadtxt body = Ok table /\ 2 <= length table /\ option_map fst (hd_error table) = Some (f0, m0) /\
    stem_of (List.last (p_parts p) []) st /\ version_of st = Some v /\ In (v, alpha) alphas /\
    (forall f, (f < f0)%Qc -> on = true -> cal f = Ok (cal_mp f m0 (angle f alpha))) /\
    (tabulation (map (row_point cal_mp) table) ->
     exists g, tabulates (map (row_point cal_mp) table) g /\
     forall f, (f0 <= f)%Qc \/ on = false -> cal f = g f).
Proof.
  intros cal_mp angle loadtxt version_of read pkg cwd fs filename rate limit alphas cal H.
  apply metronix_inv in H as (p & lines & body & table & st & v & alpha & f0 & m0 & H1 & H2 & H3 & H4 & H5 & H6 & H7 & H8 & H9 & H10 & H11).
  exists p, lines, (Qcleb rate limit), body, table, st, v, alpha, f0, m0.
  split; [exact H1|]. split; [exact H2|]. split; [apply Qcleb_le|]. split; [exact H3|]. split; [exact H4|]. split; [exact H5|].
  split; [exact H9|]. split; [exact H6|]. split; [exact H7|]. split; [apply find_some in H8; tauto|].
  split; [intros f Hf Hon; apply H10; [exact Hf|apply Qcleb_le; exact Hon]|].
  intros Ht. exists (interp1d (A := QA) (map (row_point cal_mp) table)). split; [apply interp_tabulates; exact Ht|].
  intros f [Hf|Hf]; apply H11; [left; exact Hf|right; apply Qcleb_gt; exact Hf].
Qed.
Print Assumptions C73_selection.

(** C73: it succeeds as soon as the file, its section, a table of two rows and the
    parameter of the version are there. *)
Theorem C73_succeeds :
  forall (cal_mp : Qc -> Qc -> Qc -> cq) (angle : Qc -> Qc -> Qc) (loadtxt : list text -> res (list (Qc * Qc * Qc)))
    (version_of : text -> option text) (read : path -> res (list text)) (pkg cwd : path) (fs : fsys)
    (filename : text) (rate limit : Qc) (alphas : list (text * Qc))
    (p : path) (lines : list text) (on : bool) (body : list text) (table : list (Qc * Qc * Qc)) (st v : text),
  get_data_file pkg cwd fs filename (txt "metronix_calibration") = Ok p -> read p = Ok lines ->
  (on = true <-> (rate <= limit)%Qc) -> section_of on lines body -> loadtxt body = Ok table -> 2 <= length table ->
  stem_of (List.last (p_parts p) []) st -> version_of st = Some v -> In v (map fst alphas) ->
  exists cal, metronix (A := QA) cal_mp angle loadtxt version_of read pkg cwd fs filename rate limit alphas = Ok cal.
Proof.
  intros cal_mp angle loadtxt version_of read pkg cwd fs filename rate limit alphas p lines on body table st v H1 H2 Hon H3 H4 H5 H6 H7 H8.
  assert (on = Qcleb rate limit) as -> by (destruct on, (Qcleb rate limit) eqn:E; try reflexivity; [apply Qcleb_gt in E; exfalso; apply (Qclt_not_le _ _ E), Hon; reflexivity|apply Qcleb_le, Hon in E; discriminate]).
  destruct (find (fun e => teqb (fst e) v) alphas) as [[v' al]|] eqn:E.
  - assert (v' = v) as ->. { apply find_some in E as (_ & E). unfold teqb in E. cbn [fst] in E. destruct (list_eq_dec _ v' v); [assumption|discriminate]. }
    eapply metronix_ok; eassumption.
  - exfalso. apply in_map_iff in H8 as (e & He & Hin). apply (find_none _ _ E) in Hin. unfold teqb in Hin. destruct (list_eq_dec _ (fst e) v); [discriminate|congruence].
Qed.
Print Assumptions C73_succeeds.

(** C73: without a line with the mark it is StopIteration. *)
Theorem C73_no_section :
  forall (cal_mp : Qc -> Qc -> Qc -> cq) (angle : Qc -> Qc -> Qc) (loadtxt : list text -> res (list (Qc * Qc * Qc)))
    (version_of : text -> option text) (read : path -> res (list text)) (pkg cwd : path) (fs : fsys)
    (filename : text) (rate limit : Qc) (alphas : list (text * Qc)) (p : path) (lines : list text),
  get_data_file pkg cwd fs filename (txt "metronix_calibration") = Ok p -> read p = Ok lines ->
  (forall body, ~ section_of (Qcleb rate limit) lines body) ->
  metronix (A := QA) cal_mp angle loadtxt version_of read pkg cwd fs filename rate limit alphas = Err StopIteration.
Proof. exact metronix_no_section. Qed.
Print Assumptions C73_no_section.

(** C73: a file name without version, or a version without parameter, is ValueError. *)
Theorem C73_unknown_version :
  forall (cal_mp : Qc -> Qc -> Qc -> cq) (angle : Qc -> Qc -> Qc) (loadtxt : list text -> res (list (Qc * Qc * Qc)))
    (version_of : text -> option text) (read : path -> res (list text)) (pkg cwd : path) (fs : fsys)
    (filename : text) (rate limit : Qc) (alphas : list (text * Qc)) (p : path) (lines body : list text)
    (table : list (Qc * Qc * Qc)) (st : text),
  get_data_file pkg cwd fs filename (txt "metronix_calibration") = Ok p -> read p = Ok lines ->
  section_of (Qcleb rate limit) lines body -> loadtxt body = Ok table -> 2 <= length table ->
  stem_of (List.last (p_parts p) []) st ->
  (version_of st = None \/ exists v, version_of st = Some v /\ forall e, In e alphas -> fst e <> v) ->
  metronix (A := QA) cal_mp angle loadtxt version_of read pkg cwd fs filename rate limit alphas = Err ValueError.
Proof. exact metronix_version. Qed.
Print Assumptions C73_unknown_version.

(** C73: every failure is one of these, or the one of the search of the file, of its
    reading or of the reading of the table; with less than two rows it is IndexError. *)
Theorem C73_fails :
  forall (cal_mp : Qc -> Qc -> Qc -> cq) (angle : Qc -> Qc -> Qc) (loadtxt : list text -> res (list (Qc * Qc * Qc)))
    (version_of : text -> option text) (read : path -> res (list text)) (pkg cwd : path) (fs : fsys)
    (filename : text) (rate limit : Qc) (alphas : list (text * Qc)) (x : exn),
  metronix (A := QA) cal_mp angle loadtxt version_of read pkg cwd fs filename rate limit alphas = Err x ->
  get_data_file pkg cwd fs filename (txt "metronix_calibration") = Err x \/
  exists p, get_data_file pkg cwd fs filename (txt "metronix_calibration") = Ok p /\
  (read p = Err x \/ exists lines, read p = Ok lines /\
   (x = StopIteration /\ (forall body, ~ section_of (Qcleb rate limit) lines body) \/
    exists body, section_of (Qcleb rate limit) lines body /\
    (loadtxt body = Err x \/ exists table, loadtxt body = Ok table /\
     (x = IndexError /\ length table < 2 \/
      x = ValueError /\ 2 <= length table /\
      forall st v, stem_of (List.last (p_parts p) []) st -> version_of st = Some v -> forall e, In e alphas -> fst e <> v)))).
Proof. exact metronix_fails. Qed.
Print Assumptions C73_fails.

(** C73: the default version is the last "MFS" followed by two digits. *)
Theorem C73_version : forall name v : text, mfs name = Some v <-> last_version name v.
Proof. exact mfs_iff. Qed.
Print Assumptions C73_version.

(** ** a file with both sections; the rows are numbers between spaces *)
Fixpoint s_words (l : text) : list text :=
  match l with
  | [] => [[]]
  | c :: r => if is_space c then [] :: s_words r else match s_words r with w :: ws => (c :: w) :: ws | [] => [[c]] end
  end.
Definition s_number (w : text) : Qc := Q2Qc (inject_Z (fold_left (fun a c => 10 * a + (Z.of_nat (nat_of_ascii c) - 48))%Z w 0%Z)).
Definition s_row (l : text) : option (Qc * Qc * Qc) :=
  match map s_number (filter (fun w => match w with [] => false | _ => true end) (s_words l)) with
  | a :: b :: c :: _ => Some (a, b, c)
  | _ => None
  end.
Definition s_loadtxt (ls : list text) : res (list (Qc * Qc * Qc)) := mapM (fun l => of_option ValueError (s_row l)) ls.
Definition s_mp (f m p : Qc) : cq := ((f * m)%Qc, p).
Definition s_angle (f alpha : Qc) : Qc := (f + alpha)%Qc.
Definition s_lines : list text := map txt
  [ "sensor"; " CHOPPER  on  data"; "1 2 3"; " 4 5 6"; "  "; ""; "Chopper Off"; "2 3 4"; "4 3 2"; "8 1 1" ]%string.
Definition s_file : path := parse_path (txt "/d/data/metronix_calibration/x-MFS06-MFS07.y.txt").
Definition s_fs : fsys := fun p => if path_eqb p s_file then Some false else None.
Definition s_read (p : path) : res (list text) := Ok s_lines.
Definition s_metronix (rate limit : Qc) (alphas : list (text * Qc)) :=
  metronix (A := QA) s_mp s_angle s_loadtxt mfs s_read (mkPath true [txt "d"]) (mkPath true [txt "e"]) s_fs
    (txt "x-MFS06-MFS07.y.txt") rate limit alphas.
Definition s_value (r : res (Qc -> res cq)) (f : Qc) : option (Q * Q) :=
  match r with Ok cal => match cal f with Ok v => Some (this (fst v), this (snd v)) | Err _ => None end | Err _ => None end.
Definition s_alphas : list (text * Qc) := [(txt "MFS06", Q2Qc 4); (txt "MFS07", Q2Qc 32)].
Definition qz (z : Z) : Qc := Q2Qc (inject_Z z).
Example C73_example :
  s_value (s_metronix (qz 512) (qz 512) s_alphas) (qz 0) = Some (0%Q, inject_Z 32) /\
  s_value (s_metronix (qz 512) (qz 512) s_alphas) (qz 2) = Some (inject_Z 8, inject_Z 4) /\
  s_value (s_metronix (qz 512) (qz 512) s_alphas) (qz 5) = None /\
  s_value (s_metronix (qz 513) (qz 512) s_alphas) (qz 1) = None /\
  s_value (s_metronix (qz 513) (qz 512) s_alphas) (qz 6) = Some (inject_Z 10, 3 # 2)%Q /\
  s_metronix (qz 513) (qz 512) [] = Err ValueError /\
  section_of true s_lines [txt "1 2 3"; txt " 4 5 6"] /\
  section_of false s_lines [txt "2 3 4"; txt "4 3 2"; txt "8 1 1"] /\
  (forall body, ~ section_of true [txt "sensor"; txt "Chopper"; txt "a Chopper on"] body).
Proof.
  repeat match goal with |- _ /\ _ => split end; try (vm_compute; reflexivity); try (apply section_ok; vm_compute; reflexivity).
  intros body H. apply section_ok in H. vm_compute in H. discriminate.
Qed.
Example C73_rows :
  tabulation (map (row_point s_mp) [(qz 1, qz 2, qz 3); (qz 4, qz 5, qz 6)]) /\
  last_version (txt "x-MFS06-MFS07.y") (txt "MFS07") /\ stem_of (txt "x-MFS06-MFS07.y.txt") (txt "x-MFS06-MFS07.y").
Proof.
  split; [split; [repeat constructor; simpl; intuition discriminate|simpl; lia]|].
  split; [apply mfs_iff; vm_compute; reflexivity|apply stem_spec; vm_compute; reflexivity].
Qed.

(** C73: when the first row has not the least frequency, the calibration in
    chopper-on mode is not the tabulated one at the rows of lower frequencies. *)
Theorem C73_descending_refuted :
  exists (table : list (Qc * Qc * Qc)) (alpha : Qc) (cal : Qc -> res cq) (row : Qc * Qc * Qc),
  tabulation (map (row_point s_mp) table) /\ In row table /\
  calibration (A := QA) s_mp s_angle (fun _ => Some (txt "MFS07")) table (txt "MFS07") true [(txt "MFS07", alpha)] = Ok cal /\
  cal (fst (fst row)) <> Ok (snd (row_point s_mp row)).
Proof.
  exists [(qz 4, qz 5, qz 6); (qz 1, qz 2, qz 3)], (qz 32). eexists. exists (qz 1, qz 2, qz 3).
  split; [split; [repeat constructor; simpl; intuition discriminate|simpl; lia]|].
  split; [right; left; reflexivity|]. split; [reflexivity|]. intros H. vm_compute in H. discriminate.
Qed.
Print Assumptions C73_descending_refuted.

(** C84: Phoenix calibrations: one function for each channel, which tabulates the
    rows of the level. *)
Theorem C84_phoenix :
  forall (n : nat) (rows : list (Qc * Qc * list cq)) (level : Qc) (cals : list (Qc -> res cq)),
  phoenix (A := QA) n rows level = Ok cals ->
  length cals = n /\ (exists r, In r rows /\ snd (fst r) = level) /\
  forall i cal, nth_error cals i = Some cal -> forall pts,
    pts = map (fun r => (fst (fst r), nth i (snd r) (0%Qc, 0%Qc))) (filter (fun r => Qceqb (snd (fst r)) level) rows) ->
    tabulation pts -> tabulates pts cal.
Proof. exact phoenix_ok. Qed.
Print Assumptions C84_phoenix.

(** C84: a level without rows is not the AssertionError of the source but ValueError,
    since the message cannot be formatted. *)
Theorem C84_no_level :
  forall (n : nat) (rows : list (Qc * Qc * list cq)) (level : Qc),
  (forall r, In r rows -> snd (fst r) <> level) -> phoenix (A := QA) n rows level = Err ValueError.
Proof. exact phoenix_err. Qed.
Print Assumptions C84_no_level.

Definition s_rows : list (Qc * Qc * list cq) :=
  [(qz 8, qz 2, [(qz 1, qz 2); (qz 3, qz 4)]); (qz 5, qz 3, [(qz 0, qz 0); (qz 0, qz 0)]); (qz 4, qz 2, [(qz 5, qz 6); (qz 7, qz 8)])].
Definition s_values (r : res (list (Qc -> res cq))) (f : Qc) : option (list (option (Q * Q))) :=
  match r with
  | Ok cals => Some (map (fun cal => match cal f with Ok v => Some (this (fst v), this (snd v)) | Err _ => None end) cals)
  | Err _ => None
  end.
Example C84_example :
  s_values (phoenix (A := QA) 2 s_rows (qz 2)) (qz 5) = Some [Some (inject_Z 4, inject_Z 5); Some (inject_Z 6, inject_Z 7)] /\
  s_values (phoenix (A := QA) 2 s_rows (qz 2)) (qz 9) = Some [None; None] /\
  (forall r, In r s_rows -> snd (fst r) <> qz 4) /\ phoenix (A := QA) 2 s_rows (qz 4) = Err ValueError.
Proof.
  split; [vm_compute; reflexivity|]. split; [vm_compute; reflexivity|]. split; [|vm_compute; reflexivity].
  intros r Hr. repeat (destruct Hr as [<-|Hr]; [intros E; discriminate E|]). destruct Hr.
Qed.
