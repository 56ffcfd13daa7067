(** The calibrations given to a signal: property C99. *)
From Coq Require Import QArith Qcanon.
From Verif Require Import Base BaseLemmas Arith SyncModel FourierModel CalArgModel SpecCalArg CalArgProofs.
Open Scope nat_scope. Local Open Scope list_scope.

(** C99: the coefficients of a channel are divided by its calibration at the
    frequency, whether it is a function or a number; they exist exactly when the
    transform of the samples and all calibrations do. *)
Theorem C99_divides :
  forall (A : Arith) (V C : Type) (one : C)
  (tone : num A -> nat -> nat -> C) (cmul : C -> C -> C) (cdot : list C -> list V -> C) (cdiv : C -> C -> C)
  (data : list (list V)) (rate start : num A) (cals : list calarg) (s : sync A V calfun)
  (f Nper overlap : num A) (w : window_arg C) (l : list (list C)) (wd : nat * nat * nat),
  cals <> [] -> sync_make one data rate start (Some cals) = Ok s ->
  (sync_fourier tone cmul cdot (fun k x => k x) cdiv s f Nper overlap w = Ok (l, wd) <->
   exists raw, time_to_freq tone cmul cdot data rate f Nper overlap w = Ok (raw, wd) /\
   calibrated cdiv f cals raw l /\ forall c, In c cals -> exists v, has_value f c v).
Proof. intros A V C one tone cmul cdot cdiv. exact (made_fourier one tone cmul cdot cdiv). Qed.
Print Assumptions C99_divides.

(** C99: without calibrations, and with an empty list of them, the coefficients
    are those of the samples. *)
Theorem C99_default :
  forall (A : Arith) (V C : Type) (one : C)
  (tone : num A -> nat -> nat -> C) (cmul : C -> C -> C) (cdot : list C -> list V -> C) (cdiv : C -> C -> C)
  (data : list (list V)) (rate start : num A) (cals : option (list calarg)) (s : sync A V calfun)
  (f Nper overlap : num A) (w : window_arg C),
  (forall x, cdiv x one = x) -> cals = None \/ cals = Some [] -> sync_make one data rate start cals = Ok s ->
  sync_fourier tone cmul cdot (fun k x => k x) cdiv s f Nper overlap w = time_to_freq tone cmul cdot data rate f Nper overlap w.
Proof. intros A V C one tone cmul cdot cdiv. exact (default_fourier one tone cmul cdot cdiv). Qed.
Print Assumptions C99_default.

(** C99: a None in the list is accepted by the constructor and refused by every transform. *)
Theorem C99_none :
  forall (A : Arith) (V C : Type) (one : C)
  (tone : num A -> nat -> nat -> C) (cmul : C -> C -> C) (cdot : list C -> list V -> C) (cdiv : C -> C -> C)
  (data : list (list V)) (rate start : num A) (cals : list calarg) (s : sync A V calfun)
  (f Nper overlap : num A) (w : window_arg C),
  sync_make one data rate start (Some cals) = Ok s -> In CalNone cals ->
  (forall g, In (CalFun g) cals -> exists v, g f = Ok v) ->
  sync_fourier tone cmul cdot (fun k x => k x) cdiv s f Nper overlap w = Err AssertionError.
Proof. intros A V C one tone cmul cdot cdiv. exact (none_fourier one tone cmul cdot cdiv). Qed.
Print Assumptions C99_none.

(** two channels: a number, and a function of the frequency *)
Definition q_tone (_ : Qc) (N i : nat) : Qc := if i =? 0 then 1%Qc else Q2Qc 0.
Definition q_dot (l : list Qc) (x : list Qc) : Qc := fold_right (fun p r => (fst p * snd p + r)%Qc) (Q2Qc 0) (combine l x).
Definition q_data : list (list Qc) := [map Q2Qc [2; 4; 6; 8; 10; 12; 14; 16]; map Q2Qc [3; 6; 9; 12; 15; 18; 21; 24]]%Q.
Definition q_fourier (cals : option (list calarg)) : res (list (list Qc) * (nat * nat * nat)) :=
  s <- sync_make (A := QA) (Q2Qc 1) q_data (Q2Qc 4) (Q2Qc 0) cals ;;
  sync_fourier (A := QA) q_tone Qcmult q_dot (fun k x => k x) Qcdiv s (Q2Qc 1) (Q2Qc 1) (Q2Qc 0) WNone.
Definition q_num : list calarg := [CalNum (Q2Qc 2); CalFun (A := QA) (fun f => Ok (Some (f * Q2Qc 3)%Qc))].
Definition q_seen (r : res (list (list Qc) * (nat * nat * nat))) : option (list (list Q)) :=
  match r with Ok (l, _) => Some (map (map this) l) | Err _ => None end.
Example C99_example :
  q_seen (q_fourier None) = Some [[2; 10]; [3; 15]]%Q /\
  q_seen (q_fourier (Some [])) = Some [[2; 10]; [3; 15]]%Q /\
  q_seen (q_fourier (Some q_num)) = Some [[1; 5]; [1; 5]]%Q /\
  q_fourier (Some [CalNum (Q2Qc 2); CalNone]) = Err AssertionError /\
  (exists s, sync_make (A := QA) (Q2Qc 1) q_data (Q2Qc 4) (Q2Qc 0) (Some [CalNum (Q2Qc 2); CalNone]) = Ok s) /\
  (exists s, sync_make (A := QA) (Q2Qc 1) q_data (Q2Qc 4) (Q2Qc 0) (Some q_num) = Ok s) /\
  (forall x : Qc, Qcdiv x (Q2Qc 1) = x) /\
  forall c, In c q_num -> exists v, has_value (A := QA) (Q2Qc 5) c v.
Proof.
  split; [reflexivity|]. split; [reflexivity|]. split; [reflexivity|]. split; [reflexivity|].
  split; [eexists; reflexivity|]. split; [eexists; reflexivity|].
  split; [intros x; unfold Qcdiv; replace (/ Q2Qc 1)%Qc with (Q2Qc 1) by reflexivity; apply Qcmult_1_r|].
  intros c [<-|[<-|[]]]; eexists; reflexivity.
Qed.
