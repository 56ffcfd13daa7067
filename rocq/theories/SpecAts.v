(** Specification vocabulary for ATS files: how a header is written. *)
From Verif Require Import Base Arith SyncModel ProxyModel SpecProxy AtsModel.

(** [n] bytes holding [z] modulo 256^n, least significant first *)
Fixpoint le_bytes (n : nat) (z : Z) : bytes :=
  match n with O => [] | S n => ascii_of_N (Z.to_N (z mod 256)) :: le_bytes n (z / 256) end%Z.

(** a value that fits in a field *)
Definition fits (c : fcode) (v : fval) : Prop :=
  match c, v with
  | Fint n true, VI z => (- 2 ^ (8 * Z.of_nat n - 1) <= z < 2 ^ (8 * Z.of_nat n - 1))%Z
  | Fint n false, VI z => (0 <= z < 2 ^ (8 * Z.of_nat n))%Z
  | Fflt n, VF z => (0 <= z < 2 ^ (8 * Z.of_nat n))%Z
  | Fstr n, VS s => length s = n
  | _, _ => False
  end.
(** its bytes *)
Definition fencode (c : fcode) (v : fval) : bytes :=
  match v with VI z | VF z => le_bytes (fsize c) z | VS s => s | _ => [] end.
(** the fields one after the other, without padding *)
Fixpoint packed (fmt : list fcode) (vs : list fval) : bytes :=
  match fmt, vs with c :: fmt, v :: vs => fencode c v ++ packed fmt vs | _, _ => [] end.

(** the header of an ATS file: position, name and kind of every field *)
Definition layout : list (nat * string * fcode) := ([
  (0, "header_length", Fint 2 true); (2, "header_version", Fint 2 true);
  (4, "sample_length", Fint 4 true); (8, "sampling_rate", Fflt 4); (12, "start", Fint 4 true);
  (16, "lsbval", Fflt 8); (24, "GMToffset", Fint 4 true); (28, "Res1", Fint 4 true);
  (32, "serial_number_ADU06", Fint 2 false); (34, "serial_number_ADC_board", Fint 2 true);
  (36, "channel_number", Fint 1 true); (37, "Res2", Fint 1 true); (38, "channel_type", Fstr 2);
  (40, "sensor_type", Fstr 6); (46, "sensor_serial_number", Fint 2 true); (48, "x1", Fflt 4);
  (52, "y1", Fflt 4); (56, "z1", Fflt 4); (60, "x2", Fflt 4); (64, "y2", Fflt 4);
  (68, "z2", Fflt 4); (72, "E_field_dipole_length", Fflt 4); (76, "angle", Fflt 4);
  (80, "rho_probe", Fflt 4); (84, "DC_offset_voltage", Fflt 4);
  (88, "internal_gain_ampli", Fflt 4); (92, "Res3", Fint 4 true); (96, "ADU_Lat", Fint 4 true);
  (100, "ADU_Long", Fint 4 true); (104, "ADU_Elev", Fint 4 true);
  (108, "Lat_Long_TYPE", Fstr 1); (109, "add_coordinates", Fstr 1);
  (110, "ref_meridian", Fint 2 true); (112, "xcoor", Fflt 8); (120, "ycoor", Fflt 8);
  (128, "gps_clock_status", Fstr 1); (129, "accuracy_GPS", Fint 1 true);
  (130, "offset_UTC", Fint 2 true); (132, "Res4a", Fint 4 true); (136, "Res4b", Fint 4 true);
  (140, "Res4c", Fint 4 true); (144, "survey_header_filename", Fstr 12);
  (156, "type_of_meas", Fstr 4); (160, "logfile", Fstr 12); (172, "result_selftest", Fstr 2);
  (174, "Res5", Fint 2 true); (176, "number_of_calib_freq", Fint 2 true);
  (178, "length_of_freq_entry", Fint 2 true); (180, "version_calib", Fint 2 true);
  (182, "start_addres", Fint 2 true); (184, "Res6", Fint 8 true);
  (192, "cal_filename_ADU06", Fstr 12); (204, "datetime_calib", Fint 4 true);
  (208, "cal_sensor_filename", Fstr 12); (220, "datetime_calib_sens", Fint 4 true);
  (224, "powerline1", Fflt 4); (228, "powerline2", Fflt 4); (232, "Res7", Fint 8 true);
  (240, "CSAMT_Tx_freq", Fflt 4); (244, "CSAMT_TS_blocks", Fint 2 true);
  (246, "CSAMT_stacks", Fint 2 true); (248, "CSAMT_blk_length", Fint 4 true);
  (252, "Res8", Fint 4 true); (256, "Client", Fstr 16); (272, "Contractor", Fstr 16);
  (288, "Area", Fstr 16); (304, "SurveyID", Fstr 16); (320, "Operator", Fstr 16);
  (336, "Res9", Fstr 112); (448, "Weather", Fstr 64); (512, "Comments", Fstr 512)
])%string.
Definition codes : list fcode := map snd layout.
Definition names : list string := map (fun f => snd (fst f)) layout.

(** what is returned for the field [name] when [v] is stored: the coordinates are in
    degrees and metres *)
Definition in_units (name : string) (v : fval) : fval :=
  match v with
  | VI z => if orb (String.eqb name "ADU_Lat") (String.eqb name "ADU_Long") then VDeg z
            else if String.eqb name "ADU_Elev" then VMetre z else v
  | _ => v
  end.

(** a 32-bit signed sample and its bytes *)
Definition int32 (z : Z) : Prop := (- 2 ^ 31 <= z < 2 ^ 31)%Z.

(** an ATS file: header fields [vs] in 1024 bytes, more header bytes, samples and
    trailing bytes *)
Record ats_file (vs : list fval) (xs : list Z) (file : bytes) : Prop := {
  af_fits : Forall2 fits codes vs;
  af_xs : Forall int32 xs;
  af_file : exists more trailing,
    file = packed codes vs ++ more ++ concat (map (le_bytes 4) xs) ++ trailing /\
    In ("header_length"%string, VI (Z.of_nat (1024 + length more))) (combine names vs) /\
    length trailing < 4 }.

(** a file on disk, and what matters of it *)
Record chan : Type := mkChan {
  c_fields : list fval; c_raw : list Z; c_rate : Z; c_first : Z; c_count : Z; c_lsb : Z }.
Definition channel {F} (fs : F -> option bytes) (f : F) (c : chan) : Prop :=
  let has name v := In (name%string, v) (combine names (c_fields c)) in
  (exists file, fs f = Some file /\ ats_file (c_fields c) (c_raw c) file) /\
  has "sampling_rate" (VF (c_rate c)) /\ has "start" (VI (c_first c)) /\
  has "sample_length" (VI (c_count c)) /\ has "lsbval" (VF (c_lsb c)).
(** the samples announced by the header, or all the samples of the file *)
Definition c_samples (c : chan) : list Z := firstn (Z.to_nat (c_count c)) (c_raw c).
