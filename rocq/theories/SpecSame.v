(** Vocabulary for data sets that hold the same channels under some tags. *)
From Verif Require Import Base Arith TagsModel SyncModel SetModel SpecSet UtilsModel.

Section Same.
Context {A : Arith} {V K : Type}.
Notation sigset := (@sigset A V K).

(** the tag [t] is known to both sets or to none, and reads the same *)
Definition agree (X Y : sigset) (t : string) : Prop :=
  (forall n, tag_size X t n <-> tag_size Y t n) /\ (forall p gs, tracks X t p gs <-> tracks Y t p gs).

(** all channels have a calibration at the frequency [f] *)
Definition calibrated {C} (calib : K -> num A -> res (option C)) (X : sigset) (f : num A) : Prop :=
  forall s c, In s (ss_signals X) -> In c (s_cal s) -> exists v, calib c f = Ok (Some v).
End Same.

(** the tags an estimate works with *)
Definition used {k St} (a : @iargs k St) (t : string) : Prop := t = ia_elec a \/ t = ia_mag a \/ remote_name a = Some t.
