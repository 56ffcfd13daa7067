(** Model of src/razorback/io/ats.py: header of ATS files, loading of channels. *)
From Verif Require Import Base Arith SyncModel ProxyModel.
Open Scope string_scope. Open Scope list_scope. Open Scope nat_scope.

(** ** Python's [struct] (native byte order and alignment of a 64-bit little-endian
    machine) *)

(** little-endian numbers *)
Fixpoint le_nat (b : bytes) : Z :=
  match b with [] => 0 | c :: b => Z.of_N (N_of_ascii c) + 256 * le_nat b end%Z.
Definition le_signed (b : bytes) : Z :=
  let z := le_nat b in
  if (z <? 2 ^ (8 * Z.of_nat (length b) - 1))%Z then z else (z - 2 ^ (8 * Z.of_nat (length b)))%Z.

(** format codes: integers b h i q (signed) and H, floats f d, strings Ns *)
Inductive fcode : Type := Fint (size : nat) (signed : bool) | Fflt (size : nat) | Fstr (size : nat).
(** unpacked values; a float is represented by its bits. [VDeg z] and [VMetre z] are
    the floats z * (1e-3 / 3600) and z * 1e-2 (ats.py:166-169): the products are not
    computed *)
Inductive fval : Type := VI (z : Z) | VF (bits : Z) | VS (s : bytes) | VDeg (z : Z) | VMetre (z : Z).

Definition fsize (c : fcode) : nat := match c with Fint n _ | Fflt n | Fstr n => n end.
(** native alignment: that of the C type, so the size for numbers, 1 for strings *)
Definition falign (c : fcode) : nat := match c with Fint n _ | Fflt n => n | Fstr _ => 1 end.
Definition align_up (pos a : nat) : nat := pos + (a - pos mod a) mod a.

Definition fdecode (c : fcode) (b : bytes) : fval :=
  match c with
  | Fint _ true => VI (le_signed b)
  | Fint _ false => VI (le_nat b)
  | Fflt _ => VF (le_nat b)
  | Fstr _ => VS b
  end.

(** position of every field, and the total size [struct.calcsize] *)
Fixpoint positions (fmt : list fcode) (pos : nat) : list nat * nat :=
  match fmt with
  | [] => ([], pos)
  | c :: fmt =>
      let p := align_up pos (falign c) in
      let (ps, total) := positions fmt (p + fsize c) in (p :: ps, total)
  end.

Definition unpack_from (fmt : list fcode) (buf : bytes) : res (list fval) :=
  let (ps, total) := positions fmt 0 in
  ' _ <- check (total <=? length buf) StructError ;;
  Ok (map (fun cp => fdecode (fst cp) (firstn (fsize (fst cp)) (skipn (snd cp) buf))) (combine fmt ps)).

(** ** ats.py:74-171 [read_ats_header] *)

(** ats.py:77-149 *)
Definition byte_format : list (string * fcode) := [
  ("header_length", Fint 2 true); ("header_version", Fint 2 true);
  ("sample_length", Fint 4 true); ("sampling_rate", Fflt 4); ("start", Fint 4 true);
  ("lsbval", Fflt 8); ("GMToffset", Fint 4 true); ("Res1", Fint 4 true);
  ("serial_number_ADU06", Fint 2 false); ("serial_number_ADC_board", Fint 2 true);
  ("channel_number", Fint 1 true); ("Res2", Fint 1 true); ("channel_type", Fstr 2);
  ("sensor_type", Fstr 6); ("sensor_serial_number", Fint 2 true); ("x1", Fflt 4);
  ("y1", Fflt 4); ("z1", Fflt 4); ("x2", Fflt 4); ("y2", Fflt 4); ("z2", Fflt 4);
  ("E_field_dipole_length", Fflt 4); ("angle", Fflt 4); ("rho_probe", Fflt 4);
  ("DC_offset_voltage", Fflt 4); ("internal_gain_ampli", Fflt 4); ("Res3", Fint 4 true);
  ("ADU_Lat", Fint 4 true); ("ADU_Long", Fint 4 true); ("ADU_Elev", Fint 4 true);
  ("Lat_Long_TYPE", Fstr 1); ("add_coordinates", Fstr 1); ("ref_meridian", Fint 2 true);
  ("xcoor", Fflt 8); ("ycoor", Fflt 8); ("gps_clock_status", Fstr 1);
  ("accuracy_GPS", Fint 1 true); ("offset_UTC", Fint 2 true); ("Res4a", Fint 4 true);
  ("Res4b", Fint 4 true); ("Res4c", Fint 4 true); ("survey_header_filename", Fstr 12);
  ("type_of_meas", Fstr 4); ("logfile", Fstr 12); ("result_selftest", Fstr 2);
  ("Res5", Fint 2 true); ("number_of_calib_freq", Fint 2 true);
  ("length_of_freq_entry", Fint 2 true); ("version_calib", Fint 2 true);
  ("start_addres", Fint 2 true); ("Res6", Fint 8 true); ("cal_filename_ADU06", Fstr 12);
  ("datetime_calib", Fint 4 true); ("cal_sensor_filename", Fstr 12);
  ("datetime_calib_sens", Fint 4 true); ("powerline1", Fflt 4); ("powerline2", Fflt 4);
  ("Res7", Fint 8 true); ("CSAMT_Tx_freq", Fflt 4); ("CSAMT_TS_blocks", Fint 2 true);
  ("CSAMT_stacks", Fint 2 true); ("CSAMT_blk_length", Fint 4 true); ("Res8", Fint 4 true);
  ("Client", Fstr 16); ("Contractor", Fstr 16); ("Area", Fstr 16); ("SurveyID", Fstr 16);
  ("Operator", Fstr 16); ("Res9", Fstr 112); ("Weather", Fstr 64); ("Comments", Fstr 512)
].

(** ats.py:166-169 [header[name] *= ...] for an integer field *)
Definition rescale (name : string) (unit : Z -> fval) (header : dict fval) : res (dict fval) :=
  match dget name header with
  | Some (VI z) => Ok (dset name (unit z) header)
  | Some _ => Err TypeError
  | None => Err KeyError
  end.

(** ats.py:151-171, on the content of the file *)
Definition read_ats_header (file : bytes) : res (dict fval) :=
  ' _ <- check (2 <=? length file) OtherException ;;
  let len := Z.to_nat (le_nat (firstn 2 file)) in
  let b_header := firstn len file in
  values <- unpack_from (map snd byte_format) b_header ;;
  let header := fold_left (fun d p => dset (fst p) (snd p) d) (combine (map fst byte_format) values) [] in
  header <- rescale "ADU_Lat" VDeg header ;;
  header <- rescale "ADU_Long" VDeg header ;;
  rescale "ADU_Elev" VMetre header.

(** ** ats.py:26-71 [read_ats_sample], [load_ats] *)
Section Load.
Context {A : Arith} {V K F : Type}.
Variable kone : K.
Variable rate_of : Z -> num A.           (* the number with these binary32 bits *)
Variable scale : Z -> Z -> V.            (* bits of a binary64 number times an integer *)
Variable fs : F -> option bytes.         (* content of the files *)

Definition get_int (h : dict fval) (name : string) : res Z :=
  match dget name h with Some (VI z) => Ok z | Some _ => Err TypeError | None => Err KeyError end.
Definition get_bits (h : dict fval) (name : string) : res Z :=
  match dget name h with Some (VF z) => Ok z | Some _ => Err TypeError | None => Err KeyError end.

(** the elements of a one-dimensional array *)
Definition nd_list {W} (a : nd W) : list W := map (fun i => nd_get a [i]) (seq 0 (hd 0 (nd_shape a))).

(** ats.py:48-71. Simplification: the samples are read here, the code leaves it to
    dask, which reads them by blocks [a:b] with a < b *)
Definition read_ats_sample (filename : F) : res (list V * num A * Z) :=
  file <- of_option OtherException (fs filename) ;;
  header <- read_ats_header file ;;
  rate <- get_bits header "sampling_rate" ;;
  start <- get_int header "start" ;;
  header_length <- get_int header "header_length" ;;
  sample_length <- get_int header "sample_length" ;;
  lsbval <- get_bits header "lsbval" ;;
  bf_arr <- bin_new file header_length sample_length 4 le_signed ;;
  arr <- bin_get 0%Z bf_arr [ix_full] ;;
  Ok (map (scale lsbval) (nd_list arr), rate_of rate, start).

(** ats.py:26-45; a string instead of a list of names is not modelled. The set of
    sampling rates uses equality of floats, for which two NaNs are different *)
Definition load_ats (filenames : list F) (calibrations : option (list K)) : res (sync A V K) :=
  samples <- mapM read_ats_sample filenames ;;
  let signals := map (fun s => fst (fst s)) samples in
  let rates := dedup (neqb A) (map (fun s => snd (fst s)) samples) in
  let starts := dedup Z.eqb (map snd samples) in
  match starts, rates with
  | [start], [rate] => sync_new kone signals rate (nofZ A start) calibrations
  | _, _ => Err AssertionError
  end.
End Load.
