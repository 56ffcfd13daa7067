(** A small data set, with one electric, one magnetic and one remote channel. *)
From Coq Require Import QArith Qcanon.
From Verif Require Import Base Arith TagsModel SyncModel SetModel SpecSet Samples FourierModel MestModel MestSamples UtilsModel SpecUtils.
Open Scope nat_scope.

Definition one_row (l : list (list Z)) : list Z := match l with [x] => x | _ => [] end.
(** one input channel *)
Definition u0 : UK k0 := mkUK k0 one_row (fun T br => map (fun t => map (Z.mul t) (one_row br)) T) (nat * nat * nat)
  (fun e be z iv => Ok (length e, length be, length (concat iv))) (fun _ => 1) fst.

Definition ramp (a b : Z) (n : nat) : list Z := map (fun i => (a + b * Z.of_nat i)%Z) (seq 0 n).
Definition runU (n : nat) (rate start : num QA) : xsync :=
  get (sync_new tt [firstn 4 (ramp 5 2 n) ++ firstn (n - 4) (60%Z :: ramp 15 2 n); ramp 1 1 n; ramp 0 1 n] rate start None) y0.
Definition tagsU : dict raw := [("E"%string, RInt 0); ("B"%string, RInt 1); ("R"%string, RInt 2); ("EE"%string, RTuple [0; 2]%Z)].
Definition setU : xset := set_of tagsU [runU 10 (q 1) (q 0); runU 4 (qd 1 2) (q 20)].
Lemma setU_reach : reach tt setU.
Proof.
  apply set_reach; [vm_compute; reflexivity|].
  intros s [<-|[<-|[]]]; eapply rs_new; apply get_ok; vm_compute; reflexivity.
Qed.

(** the "coefficients" of a window are the first samples, doubled *)
Definition ztone0 (_ : num QA) (L n : nat) : Z := match n with 0 => 1%Z | _ => 0%Z end.
Definition zdot0 (x w : list Z) : Z := fold_right Z.add 0%Z (map (fun p => (fst p * snd p)%Z) (combine x w)).
Definition fourU (X : xset) (f : num QA) : res (list (list Z) * windows) :=
  set_fourier (A := QA) ztone0 Z.mul zdot0 (fun (_ : unit) _ => Ok (Some 1%Z)) Z.div X f (q 1) (qd 1 2) WNone.

Definition argsU (ws : list (option (wfun k0 (list nat)))) (remote : option string) (real silent : bool) (pf rpf : option (@prefilter k0)) : @iargs k0 (list nat) :=
  mkIargs ws pf remote None rpf "E" "B" o0 real silent true.
Definition shown (r : res (list (ires u0)) * list nat) :=
  match fst r with
  | Ok l => inl (map (fun r => (ir_z u0 r, map (map this) (ir_ivt u0 r), ir_T u0 r)) l)
  | Err x => inr x
  end.
(** a prefilter that rejects one given window *)
Definition drop (i : Z) : option (@prefilter k0) := Some (fun l _ => Ok (if (i <? Z.of_nat (length l))%Z then [Z.abs i] else [])).
Definition wsU : list (option (wfun k0 (list nat))) := [None; Some (cut 20)].

(** two electric channels and a remote *)
Definition argsEE : @iargs k0 (list nat) := mkIargs [None] None (Some "R"%string) None (drop 3) "EE" "B" o0 false true true.

(** an inventory with one local station and two remotes, each on its own span *)
Definition stationU (d : dict raw) (l : list (list Z)) (start : num QA) : xset :=
  set_of d [get (sync_new tt l (q 1) start None) y0].
Definition invU : list xset :=
  [stationU [("E"%string, RInt 0); ("B"%string, RInt 1)] [firstn 4 (ramp 5 2 12) ++ 60%Z :: ramp 15 2 7; ramp 1 1 12] (q 0);
   stationU [("R1"%string, RInt 0)] [ramp 0 1 12] (q 0);
   stationU [("R2"%string, RInt 0)] [ramp 7 3 10] (q 2)].
Lemma invU_reach X : In X invU -> reach tt X.
Proof.
  intros [<-|[<-|[<-|[]]]]; (apply set_reach; [vm_compute; reflexivity|]); intros s [<-|[]]; eapply rs_new; apply get_ok; vm_compute; reflexivity.
Qed.

Lemma u0_shapes : keep_shapes u0 (fun _ => 1).
Proof.
  split; [|split; [|split; [intros; simpl; apply map_length|intros e be z iv x [= <-] _ _ _; reflexivity]]].
  - intros e b w z _ Hb n Hn. destruct b as [|row b]; [congruence|]. exact (Hn row (or_introl eq_refl)).
  - intros inputs row H. destruct inputs as [|x [|y inputs]]; [destruct H|reflexivity|destruct H].
Qed.
Lemma u0_errors : errors_exist u0.
Proof. intros e be z iv _ _ _ _. eexists. reflexivity. Qed.
