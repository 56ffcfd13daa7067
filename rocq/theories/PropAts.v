(** ATS files: properties C70, C71. *)
From Coq Require Import QArith Qcanon.
From Verif Require Import Base Arith QcLemmas SyncModel ProxyModel SpecProxy AtsModel SpecAts AtsProofs AtsSamples.
Open Scope nat_scope.

(** C70: of a file with a header of at least 1024 bytes every field is read at its
    position, with its kind, under its name; the coordinates are converted. *)
Theorem C70_fields :
  forall (file : bytes) (h : Z),
  firstn 2 file = le_bytes 2 h -> (1024 <= h < 65536)%Z -> 1024 <= length file ->
  exists header, read_ats_header file = Ok header /\ dkeys header = names /\
  forall o name c, In (o, name, c) layout ->
  exists v, fits c v /\ fencode c v = firstn (fsize c) (skipn o file) /\ dget name header = Some (in_units name v).
Proof. exact header_fields. Qed.
Print Assumptions C70_fields.

(** C70: no other file has a header. *)
Theorem C70_refused :
  forall file : bytes,
  (length file < 2 -> read_ats_header file = Err OtherException) /\
  (2 <= length file -> length file < 1024 \/ (exists h, firstn 2 file = le_bytes 2 h /\ 0 <= h < 1024)%Z ->
   read_ats_header file = Err StructError).
Proof. exact no_header_spec. Qed.
Print Assumptions C70_refused.

(** C70: the fields fill the header: nothing is left between them. *)
Theorem C70_layout :
  (forall i o name c, nth_error layout i = Some (o, name, c) -> o = list_sum (map fsize (firstn i codes))) /\
  list_sum (map fsize codes) = 1024 /\ NoDup names.
Proof. exact layout_ok. Qed.
Print Assumptions C70_layout.

(** C70: reading what was written gives every field back, whatever follows the
    header; the header may be longer than its 1024 bytes of fields. *)
Theorem C70_decodes :
  forall vs rest h,
  Forall2 fits codes vs -> In ("header_length"%string, VI h) (combine names vs) -> (1024 <= h)%Z ->
  exists header, read_ats_header (packed codes vs ++ rest) = Ok header /\
  (forall name v, In (name, v) (combine names vs) -> dget name header = Some (in_units name v)) /\
  dkeys header = names.
Proof. exact header_decodes. Qed.
Print Assumptions C70_decodes.

(** C70: the length of the header is read without sign to read the header and with a
    sign as a field. For a header of 32768 bytes or more the samples are then
    searched before the beginning of the file. *)
Theorem C70_long_header_refuted :
  exists file : bytes, length file = 32 * 1024 + 4 /\ firstn 2 file = le_bytes 2 32768 /\
  exists header, read_ats_header file = Ok header /\ dget "header_length" header = Some (VI (-32768)) /\
  forall p, bin_new file (-32768) 1 4 le_signed = Ok p -> bin_get 0%Z p [IxInt 0] = Err OtherException.
Proof. exact long_header. Qed.
Print Assumptions C70_long_header_refuted.

Example C70_example :
  Forall2 fits codes (header 1030 9 hz512 1000) /\
  In ("header_length"%string, VI 1030) (combine names (header 1030 9 hz512 1000)) /\
  match read_ats_header (packed codes (header 1030 9 hz512 1000)) with
  | Ok h => (dget "channel_number" h, dget "channel_type" h, dget "sampling_rate" h, dget "ADU_Lat" h, dget "ADU_Elev" h)
            = (Some (VI (-3)), Some (VS ["E"; "x"]%char), Some (VF hz512), Some (VDeg 172800000), Some (VMetre 0))
  | Err _ => False
  end /\
  firstn 2 (packed codes (header 1030 9 hz512 1000)) = le_bytes 2 1030 /\
  length (packed codes (header 1030 9 hz512 1000)) = 1024 /\ nth_error layout 5 = Some (16, "lsbval"%string, Fflt 8) /\
  read_ats_header (le_bytes 2 1000 ++ repeat "000"%char 2000) = Err StructError.
Proof.
  split; [apply fits_all_ok; vm_compute; reflexivity|]. split; [apply dget_In_pair; vm_compute; reflexivity|].
  repeat (split; [vm_compute; reflexivity|]). vm_compute; reflexivity.
Qed.

(** C71: which lists of files load, and what is loaded. *)
Theorem C71_loads :
  forall (V K F : Type) (kone : K) (rate_of : Z -> num QA) (scale : Z -> Z -> V) (fs : F -> option bytes)
         (fns : list F) (cs : list chan) (cal : option (list K)),
  Forall2 (channel fs) fns cs ->
  ((exists s : sync QA V K, load_ats kone rate_of scale fs fns cal = Ok s) <->
   fns <> [] /\ Forall (fun c => c_samples c <> []) cs /\
   (forall c d, In c cs -> In d cs ->
      rate_of (c_rate c) = rate_of (c_rate d) /\ c_first c = c_first d /\ length (c_samples c) = length (c_samples d)) /\
   (forall l, cal = Some l -> l = [] \/ length l = length fns)).
Proof. exact @load_iff. Qed.
Print Assumptions C71_loads.

(** C71: channel i has the samples of file i scaled by its own factor, in the order
    of the list; the sampling rate is that of the first file and the start that of
    all of them. *)
Theorem C71_channels :
  forall (A : Arith) (V K F : Type) (kone : K) (rate_of : Z -> num A) (scale : Z -> Z -> V) (fs : F -> option bytes)
         fns cs cal (s : sync A V K),
  Forall2 (channel fs) fns cs -> load_ats kone rate_of scale fs fns cal = Ok s ->
  s_data s = map (fun c => map (scale (c_lsb c)) (c_samples c)) cs /\
  (exists c, hd_error cs = Some c /\ s_rate s = rate_of (c_rate c)) /\
  (exists start, s_start s = nofZ A start /\ forall c, In c cs -> c_first c = start).
Proof. exact @load_any. Qed.
Print Assumptions C71_channels.

Definition load (l : list string) : res (sync QA Z unit) := load_ats (A := QA) tt rate_q scale_q disk l None.
Example C71_example :
  Forall2 (channel disk) ["a.ats"; "b.ats"]%string [c1; c2] /\ channel disk "c.ats"%string c3 /\
  (match load ["b.ats"; "a.ats"]%string with Ok s => Some (s_data s, s_size s) | Err _ => None end) = Some ([[1; 2; -3]; [5; -6; 7]]%Z, 3) /\
  (match load ["a.ats"; "c.ats"]%string with Err e => Some e | Ok _ => None end) = Some AssertionError /\
  (match load [] with Err e => Some e | Ok _ => None end) = Some AssertionError /\
  (match load ["z.ats"]%string with Err e => Some e | Ok _ => None end) = Some OtherException.
Proof.
  split; [constructor; [exact chan1|constructor; [exact chan2|constructor]]|]. split; [exact chan3|].
  split; [vm_compute; reflexivity|]. split; [vm_compute; reflexivity|]. split; vm_compute; reflexivity.
Qed.
