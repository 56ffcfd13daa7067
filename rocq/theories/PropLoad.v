(** Calibration tables in text files: property C108. *)
From Coq Require Import QArith Qcanon.
From Verif Require Import Base BaseLemmas Arith PathModel DataModel CalModel SpecCal CalProofs InterpProofs OrdLaws SpecNumText LoadModel SpecLoad LoadProofs.
Open Scope nat_scope. Local Open Scope list_scope.

(** C108: the table is the numbers of the cells of the lines that are neither blank nor
    comments, for each arithmetic in which numbers are made of decimals by value. *)
Theorem C108_table :
  forall (A : Arith) (of_Q : Q -> num A) (special : text -> option (num A)),
  (forall a b, (a == b)%Q -> of_Q a = of_Q b) ->
  forall (delim : option ascii) (skip : nat) (width : option nat) (lines : list text) (rows : list (list (num A))),
  loadtxt of_Q special delim skip width lines = Ok rows <-> table_of of_Q special delim skip width lines rows.
Proof. exact @loadtxt_iff. Qed.
Print Assumptions C108_table.

(** C108: everything else is ValueError. *)
Theorem C108_no_table :
  forall (A : Arith) (of_Q : Q -> num A) (special : text -> option (num A)),
  (forall a b, (a == b)%Q -> of_Q a = of_Q b) ->
  forall (delim : option ascii) (skip : nat) (width : option nat) (lines : list text),
  (forall rows, ~ table_of of_Q special delim skip width lines rows) <-> loadtxt of_Q special delim skip width lines = Err ValueError.
Proof. exact @loadtxt_none. Qed.
Print Assumptions C108_no_table.

(** C108: the calibration of a Metronix file is the one of the numbers written in the
    section. *)
Theorem C108_metronix :
  forall (cal_mp : Qc -> Qc -> Qc -> cq) (angle : Qc -> Qc -> Qc) (special : text -> option Qc)
    (version_of : text -> option text) (read : path -> res (list text)) (pkg cwd : path) (fs : fsys)
    (filename : text) (rate limit : Qc) (alphas : list (text * Qc)) (cal : Qc -> res cq),
  metronix (A := QA) cal_mp angle (load3 (A := QA) Q2Qc special) version_of read pkg cwd fs filename rate limit alphas = Ok cal ->
  exists p lines on body rows table st v alpha f0 m0,
    get_data_file pkg cwd fs filename (txt "metronix_calibration") = Ok p /\ read p = Ok lines /\
    (on = true <-> (rate <= limit)%Qc) /\ section_of on lines body /\
    table_of (A := QA) Q2Qc special None 0 None body rows /\ 2 <= length rows /\ Forall2 starts rows table /\
    option_map fst (hd_error table) = Some (f0, m0) /\
    stem_of (List.last (p_parts p) []) st /\ version_of st = Some v /\ In (v, alpha) alphas /\
    (forall f, (f < f0)%Qc -> on = true -> cal f = Ok (cal_mp f m0 (angle f alpha))) /\
    (tabulation (map (row_point cal_mp) table) ->
     exists g, tabulates (map (row_point cal_mp) table) g /\
     forall f, (f0 <= f)%Qc \/ on = false -> cal f = g f).
Proof. exact metronix_file_ok. Qed.
Print Assumptions C108_metronix.

Theorem C108_metronix_succeeds :
  forall (cal_mp : Qc -> Qc -> Qc -> cq) (angle : Qc -> Qc -> Qc) (special : text -> option Qc)
    (version_of : text -> option text) (read : path -> res (list text)) (pkg cwd : path) (fs : fsys)
    (filename : text) (rate limit : Qc) (alphas : list (text * Qc))
    (p : path) (lines : list text) (on : bool) (body : list text) (rows : list (list Qc)) (st v : text),
  get_data_file pkg cwd fs filename (txt "metronix_calibration") = Ok p -> read p = Ok lines ->
  (on = true <-> (rate <= limit)%Qc) -> section_of on lines body ->
  table_of (A := QA) Q2Qc special None 0 None body rows -> 2 <= length rows -> (forall r, In r rows -> 3 <= length r) ->
  stem_of (List.last (p_parts p) []) st -> version_of st = Some v -> In v (map fst alphas) ->
  exists cal, metronix (A := QA) cal_mp angle (load3 (A := QA) Q2Qc special) version_of read pkg cwd fs filename rate limit alphas = Ok cal.
Proof. exact metronix_file_succeeds. Qed.
Print Assumptions C108_metronix_succeeds.

(** C108: a section that is not a table is ValueError; a table with less than two rows or
    less than three columns is IndexError. *)
Theorem C108_metronix_fails :
  forall (cal_mp : Qc -> Qc -> Qc -> cq) (angle : Qc -> Qc -> Qc) (special : text -> option Qc)
    (version_of : text -> option text) (read : path -> res (list text)) (pkg cwd : path) (fs : fsys)
    (filename : text) (rate limit : Qc) (alphas : list (text * Qc))
    (p : path) (lines : list text) (on : bool) (body : list text),
  get_data_file pkg cwd fs filename (txt "metronix_calibration") = Ok p -> read p = Ok lines ->
  (on = true <-> (rate <= limit)%Qc) -> section_of on lines body ->
  ((forall rows, ~ table_of (A := QA) Q2Qc special None 0 None body rows) ->
   metronix (A := QA) cal_mp angle (load3 (A := QA) Q2Qc special) version_of read pkg cwd fs filename rate limit alphas = Err ValueError) /\
  (forall rows, table_of (A := QA) Q2Qc special None 0 None body rows -> (length rows < 2 \/ exists r, In r rows /\ length r < 3) ->
   metronix (A := QA) cal_mp angle (load3 (A := QA) Q2Qc special) version_of read pkg cwd fs filename rate limit alphas = Err IndexError).
Proof. exact metronix_file_fails. Qed.
Print Assumptions C108_metronix_fails.

(** C108: a Phoenix file gives one function for each channel of its first line, which
    tabulates the rows of the level. *)
Theorem C108_phoenix :
  forall (special : text -> option Qc) (lines : list text) (level : Qc) (cals : list (Qc -> res cq)),
  phoenix_file (A := QA) Q2Qc special lines level = Ok cals ->
  exists n rows, header (hd [] lines) (Z.of_nat n) /\ phoenix_rows (A := QA) Q2Qc special lines n rows /\ length rows <> 1 /\
  (exists r, In r rows /\ nth 1 r 0%Qc = level) /\ length cals = n /\
  forall i cal, nth_error cals i = Some cal -> tabulation (file_points i level rows) -> tabulates (file_points i level rows) cal.
Proof. exact file_ok. Qed.
Print Assumptions C108_phoenix.

Theorem C108_phoenix_succeeds :
  forall (special : text -> option Qc) (lines : list text) (level : Qc) (n : nat) (rows : list (list Qc)),
  header (hd [] lines) (Z.of_nat n) -> phoenix_rows (A := QA) Q2Qc special lines n rows -> length rows <> 1 ->
  (exists r, In r rows /\ nth 1 r 0%Qc = level) ->
  exists cals, phoenix_file (A := QA) Q2Qc special lines level = Ok cals.
Proof. exact file_succeeds. Qed.
Print Assumptions C108_phoenix_succeeds.

(** C108: it fails with IndexError for a single row and with ValueError when the first
    line or the table is wrong or the level is absent. *)
Theorem C108_phoenix_fails :
  forall (special : text -> option Qc) (lines : list text) (level : Qc) (e : exn),
  phoenix_file (A := QA) Q2Qc special lines level = Err e ->
  (e = IndexError /\ exists n rows, header (hd [] lines) (Z.of_nat n) /\ phoenix_rows (A := QA) Q2Qc special lines n rows /\ length rows = 1) \/
  (e = ValueError /\ forall n rows, header (hd [] lines) (Z.of_nat n) -> phoenix_rows (A := QA) Q2Qc special lines n rows ->
     length rows <> 1 /\ forall r, In r rows -> nth 1 r 0%Qc <> level).
Proof. exact file_fails. Qed.
Print Assumptions C108_phoenix_fails.

(** ** samples *)
Definition no_special (t : text) : option Qc := None.
Definition nl : string := String (ascii_of_nat 10) EmptyString.
Definition ld_lines (l : list string) : list text := map (fun s => txt (s ++ nl)%string) l.
Definition ld_table : list text := ld_lines ["# f m p"; " 1.5  -2e1 +.25 "; ""; "1E-2 7. 0 # last"]%string.
Example C108_cells :
  decimal (txt " -12.50e-1") (-125 # 100) /\ decimal (txt ".5") (1 # 2) /\ decimal (txt "7.") (7 # 1) /\
  (forall q, ~ decimal (txt "1e") q) /\ (forall q, ~ decimal (txt ".") q) /\ (forall q, ~ decimal (txt "1 2") q) /\
  line_cells None (txt "  a b  # c") [txt "a"; txt "b"] /\ line_cells (Some ","%char) (txt " a,,b c,") [txt " a"; []; txt "b c"; []].
Proof.
  repeat match goal with |- _ /\ _ => split end; try (apply number_of_iff; eexists; split; [vm_compute; reflexivity|reflexivity]); try (apply fields_iff; vm_compute; reflexivity);
  intros q H; apply number_of_iff in H as (v & E & _); vm_compute in E; discriminate.
Qed.
Example C108_loadtxt :
  ld_values (loadtxt (A := QA) Q2Qc no_special None 0 None ld_table) = Ok [[3 # 2; -20 # 1; 1 # 4]; [1 # 100; 7 # 1; 0 # 1]]%Q /\
  loadtxt (A := QA) Q2Qc no_special None 0 None (ld_lines ["1 2 3"; "4 5"]%string) = Err ValueError /\
  ld_values (loadtxt (A := QA) Q2Qc no_special (Some ","%char) 1 (Some 2) (ld_lines ["x"; "1,2,z"; "4, 5"]%string)) = Ok [[1; 2]; [4; 5]]%Q.
Proof. repeat split; vm_compute; reflexivity. Qed.

Definition ld_phoenix : list text := ld_lines
  ["2010/01/02, 1234,MT , 2,, "; "freq,level,re,im,re,im"; "8,2,1,2,3,4"; "5,3,0,0,0,0"; "4.0 , 2, 5e0,6, 7,8,9"]%string.
Definition ld_calls (r : res (list (Qc -> res cq))) (f : Qc) : option (list (option (Q * Q))) :=
  match r with
  | Ok cals => Some (map (fun cal => match cal f with Ok v => Some (this (fst v), this (snd v)) | Err _ => None end) cals)
  | Err _ => None
  end.
Definition ld_q (z : Z) : Qc := Q2Qc (inject_Z z).
Example C108_phoenix_example :
  header (hd [] ld_phoenix) 2 /\
  (exists rows, phoenix_rows (A := QA) Q2Qc no_special ld_phoenix 2 rows /\ length rows = 3 /\ tabulation (file_points 1 (ld_q 2) rows)) /\
  ld_calls (phoenix_file (A := QA) Q2Qc no_special ld_phoenix (ld_q 2)) (ld_q 5) = Some [Some (inject_Z 4, inject_Z 5); Some (inject_Z 6, inject_Z 7)] /\
  phoenix_file (A := QA) Q2Qc no_special ld_phoenix (ld_q 4) = Err ValueError /\
  phoenix_file (A := QA) Q2Qc no_special (firstn 3 ld_phoenix) (ld_q 2) = Err IndexError /\
  phoenix_file (A := QA) Q2Qc no_special (ld_lines ["2010/01/02,,MT,2"; "8,2,1,2,3,4"; "4,2,1,2,3,4"]%string) (ld_q 2) = Err ValueError.
Proof.
  split; [apply header_iff; do 4 eexists; split; vm_compute; reflexivity|]. split.
  - eexists. split; [apply (phoenix_rows_iff (A := QA)); [apply Q2Qc_eq|vm_compute; reflexivity]|]. split; [reflexivity|].
    split; [apply NoDup_cons; [|apply NoDup_cons; [intros []|constructor]]|vm_compute; lia]. intros [H|[]]. apply (f_equal this) in H. vm_compute in H. discriminate.
  - repeat split; vm_compute; reflexivity.
Qed.

Definition ld_sensor : list text := ld_lines
  ["sensor"; " CHOPPER  on  data"; "4 5 6"; " 1.0 2 3"; "  "; ""; "Chopper Off"; "2 3 4"; "4 3 2"; "8 1 1"]%string.
Definition ld_file : path := parse_path (txt "/d/data/metronix_calibration/x-MFS06-MFS07.y.txt").
Definition ld_fs : fsys := fun p => if path_eqb p ld_file then Some false else None.
Definition ld_mp (f m p : Qc) : cq := ((f * m)%Qc, p).
Definition ld_metronix (lines : list text) (rate : Qc) : res (Qc -> res cq) :=
  metronix (A := QA) ld_mp Qcplus (load3 (A := QA) Q2Qc no_special) mfs (fun _ => Ok lines) (mkPath true [txt "d"]) (mkPath true [txt "e"]) ld_fs
    (txt "x-MFS06-MFS07.y.txt") rate (ld_q 512) [(txt "MFS07", ld_q 32)].
Definition ld_value (r : res (Qc -> res cq)) (f : Qc) : option (Q * Q) :=
  match r with Ok cal => match cal f with Ok v => Some (this (fst v), this (snd v)) | Err _ => None end | Err _ => None end.
Example C108_metronix_example :
  ld_value (ld_metronix ld_sensor (ld_q 513)) (ld_q 6) = Some (inject_Z 10, 3 # 2)%Q /\
  ld_value (ld_metronix ld_sensor (ld_q 512)) (ld_q 4) = Some (inject_Z 20, inject_Z 6) /\
  ld_metronix (ld_lines ["chopper on"; "1 2 3"]%string) (ld_q 512) = Err IndexError /\
  ld_metronix (ld_lines ["chopper on"; "1 2 3"; "2 2 x"]%string) (ld_q 512) = Err ValueError /\
  section_of true (ld_lines ["chopper on"; "1 2 3"]%string) (ld_lines ["1 2 3"]%string).
Proof. repeat match goal with |- _ /\ _ => split end; try (vm_compute; reflexivity). apply section_ok. vm_compute. reflexivity. Qed.

(** C108: when the rows of the file are not in increasing order of frequency, the
    calibration in chopper-on mode is not the one written in the file: here the row
    "1.0 2 3" gives something else at the frequency 1. *)
Theorem C108_descending_refuted :
  exists (lines body : list text) (rows : list (list Qc)) (table : list (Qc * Qc * Qc)) (row : Qc * Qc * Qc) (cal : Qc -> res cq),
  section_of true lines body /\ table_of (A := QA) Q2Qc no_special None 0 None body rows /\ Forall2 starts rows table /\
  tabulation (map (row_point ld_mp) table) /\ In row table /\
  ld_metronix lines (ld_q 512) = Ok cal /\ cal (fst (fst row)) <> Ok (snd (row_point ld_mp row)).
Proof.
  assert (V : ld_value (ld_metronix ld_sensor (ld_q 512)) (ld_q 1) = Some (inject_Z 5, inject_Z 33)) by (vm_compute; reflexivity).
  destruct (ld_metronix ld_sensor (ld_q 512)) as [cal|e] eqn:E; [|discriminate V].
  exists ld_sensor, (ld_lines ["4 5 6"; " 1.0 2 3"]%string), [[ld_q 4; ld_q 5; ld_q 6]; [ld_q 1; ld_q 2; ld_q 3]], [(ld_q 4, ld_q 5, ld_q 6); (ld_q 1, ld_q 2, ld_q 3)], (ld_q 1, ld_q 2, ld_q 3), cal.
  split; [apply section_ok; vm_compute; reflexivity|]. split; [apply (loadtxt_iff (A := QA)); [apply Q2Qc_eq|]; apply ld_values_inj; vm_compute; reflexivity|].
  split; [repeat constructor; eexists; reflexivity|]. split; [split; [repeat constructor; simpl; intuition discriminate|simpl; lia]|].
  split; [right; left; reflexivity|]. split; [exact E|]. cbn [fst snd]. intros H. unfold ld_value in V. rewrite H in V. discriminate V.
Qed.
Print Assumptions C108_descending_refuted.
