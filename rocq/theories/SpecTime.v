(** Specification vocabulary for time windows (exact arithmetic). *)
From Coq Require Import QArith Qcanon.
From Verif Require Import Base Arith TagsModel SyncModel SetModel SpecTags SpecSet QcLemmas.

Section SpecTime.
Context {V K : Type}.
Notation sync := (sync QA V K).
Notation sigset := (@sigset QA V K).
Notation seg := (@seg QA V K).

(** [tracks] with a positive sampling rate in every run *)
Definition positive_rates (X : sigset) : Prop := forall s, In s (ss_signals X) -> pos (s_rate s).
(** at least one sample in every run *)
Definition no_empty_run (X : sigset) : Prop := forall s, In s (ss_signals X) -> 0 < s_size s.

(** time sets *)
Definition within (a b t : Qc) : bool := Qcleb a t && Qcleb t b.
Definition upto (a t : Qc) : bool := Qcleb t a.
Definition from (b t : Qc) : bool := Qcleb b t.

(** [g'] holds exactly the samples of [g] at the times selected by [P], with
    their times, values and order, and the same rate and calibration *)
Definition restricted (P : Qc -> bool) (g g' : seg) : Prop :=
  g_rate g' = g_rate g /\ g_cal g' = g_cal g /\
  seg_samples g' = filter (fun tv => P (fst tv)) (seg_samples g).

(** [gs'] holds the samples of [gs] selected by [P], run by run, without the
    runs that are left with fewer than two samples *)
Definition restriction (P : Qc -> bool) (gs gs' : list seg) : Prop :=
  exists gs1, Forall2 (restricted P) gs gs1 /\
              gs' = filter (fun g => 2 <=? length (g_vals g)) gs1.

(** number of samples of a run at the times selected by [P] *)
Definition count (P : Qc -> bool) (s : sync) : nat :=
  length (filter (fun i => P (sample_time s (Z.of_nat i))) (seq 0 (s_size s))).

(** [s'] has the channels of [s], each one related by [R] *)
Definition channelwise (R : seg -> seg -> Prop) (s s' : sync) : Prop :=
  length (s_data s') = length (s_data s) /\
  forall c g, is_seg s c g -> exists g', is_seg s' c g' /\ R g g'.
(** [g'] holds [n] samples of [g] from number [i] on, with their times *)
Definition piece (i n : nat) (g g' : seg) : Prop :=
  g_rate g' = g_rate g /\ g_cal g' = g_cal g /\
  seg_samples g' = firstn n (skipn i (seg_samples g)).
End SpecTime.

(** the half-open index range [lo, hi) asked to [extract_i] on [size] samples *)
Definition index_window (size : nat) (i_start i_stop : option Z) (include_last : bool) (lo hi : Z) : Prop :=
  match i_start with None => lo = 0 | Some i => lo = i end%Z /\
  match i_stop with
  | None => hi = Z.of_nat size
  | Some i => hi = if include_last then i + 1 else i
  end%Z.
Definition valid_window (size : nat) (lo hi : Z) : Prop :=
  (0 <= lo < Z.of_nat size /\ 0 <= hi <= Z.of_nat size)%Z.
