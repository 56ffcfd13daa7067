(** What loading ATS files raises: property C71. *)
From Coq Require Import QArith Qcanon.
From Verif Require Import Base Arith QcLemmas SyncModel ProxyModel SpecProxy AtsModel SpecAts AtsProofs AtsSamples AtsMore.
Open Scope nat_scope.

(** C71: with readable files, the only failure is an [AssertionError] (no file, a
    file without samples, different starts, rates or numbers of samples, or a wrong
    number of calibrations: see [C71_loads]). *)
Theorem C71_refused :
  forall (A : Arith) (V K F : Type) (kone : K) (rate_of : Z -> num A) (scale : Z -> Z -> V) (fs : F -> option bytes)
         fns cs cal e,
  Forall2 (channel fs) fns cs -> load_ats kone rate_of scale fs fns cal = Err e -> e = AssertionError.
Proof. exact @load_raises. Qed.
Print Assumptions C71_refused.

(** C71: the first file of the list that does not exist, or has no header, stops the
    loading, whatever follows it. *)
Theorem C71_unreadable :
  forall (A : Arith) (V K F : Type) (kone : K) (rate_of : Z -> num A) (scale : Z -> Z -> V) (fs : F -> option bytes)
         pre cs f post cal e,
  Forall2 (channel fs) pre cs -> Forall (fun c => c_samples c <> []) cs ->
  (fs f = None /\ e = OtherException \/ exists file, fs f = Some file /\ read_ats_header file = Err e) ->
  load_ats kone rate_of scale fs (pre ++ f :: post) cal = Err e.
Proof. exact @load_stops. Qed.
Print Assumptions C71_unreadable.

Definition disk_more (f : string) : option bytes :=
  if String.eqb f "short.ats" then Some ["003"%char; "004"%char] else disk f.
Definition load_more (l : list string) cal : res (sync QA Z unit) := load_ats (A := QA) tt rate_q scale_q disk_more l cal.
Example C71_refused_example :
  Forall2 (channel disk) ["a.ats"; "c.ats"]%string [c1; c3] /\ Forall (fun c => c_samples c <> []) [c1; c3] /\
  load_more ["a.ats"; "c.ats"]%string None = Err AssertionError /\
  load_more ["a.ats"; "b.ats"]%string (Some [tt]) = Err AssertionError /\
  load_more ["a.ats"; "c.ats"; "short.ats"; "z.ats"]%string None = Err StructError /\
  load_more ["a.ats"; "z.ats"; "short.ats"]%string None = Err OtherException.
Proof.
  split; [constructor; [exact chan1|constructor; [exact chan3|constructor]]|].
  split; [repeat constructor; vm_compute; discriminate|]. repeat split; vm_compute; reflexivity.
Qed.
