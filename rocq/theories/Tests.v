(** Tests, not proofs: the repository's own tests (tests/test_signalset.doctest,
    tests/test_inventory.doctest, tests/test_merge_consecutive_runs.py, the last
    one with days shortened to 2 seconds) evaluated on the model. *)
From Coq Require Import QArith Qcanon.
From Verif Require Import Base Arith TagsModel SyncModel SetModel GlobModel InvModel.
Open Scope string_scope.
Open Scope list_scope.
Open Scope Z_scope.

Definition q (z : Z) : num QA := ZtoQc z.
Definition qd (n : Z) (d : positive) : num QA := Q2Qc (n # d).

Notation sync' := (sync QA Z unit).
Notation set' := (@sigset QA Z unit).

Definition view (s : set') : list (Q * Q * Q) :=
  map (fun x : sync' => (this (s_start x), match s_stop x with Ok b => this b | _ => (-999#1)%Q end, this (s_rate x)))
      (ss_signals s).
Definition rview (r : res set') := match r with Ok s => Ok (view s) | Err e => Err e end.
Definition data_of (s : set') := map s_data (ss_signals s).
Definition zseq (a n : nat) : list Z := map Z.of_nat (seq a n).
Definition get {B} (r : res B) (d : B) : B := match r with Ok x => x | Err _ => d end.
Definition s0 : set' := mkSet [] (mkTags 0%nat []).
Definition y0 : sync' := mkSync [] [] (q 0) (q 0) 0%nat.

(** test_signalset.doctest *)
Definition data3 := [zseq 0 10; zseq 10 10; zseq 20 10].
Definition tags1 := get (tags_new None [("a", RInt 0); ("b", RInt 1); ("c", RInt 2); ("BC", RTuple [1; 2])]) (mkTags 0%nat []).
Definition sy1 := get (sync_new tt data3 (q 1) (q 0) None) y0.
Definition sy2 := get (sync_new tt (map (fun l => map Z.opp (firstn 8 l)) data3) (qd 1 2) (q 50) None) y0.
Definition sy3 := get (sync_new tt (map (map (Z.mul 10)) data3) (q 1) (q 20) None) y0.
Definition st1 := get (set_new tt (TObj tags1) [ASync sy1]) s0.
Definition st2 := get (set_new tt (TDict [("a", RInt 2); ("b", RInt 0); ("c", RInt 1); ("BC", RTuple [0; 1])]) [ASync sy2]) s0.
Definition st3 := get (set_new tt (TObj tags1) [ASync sy3]) s0.

Example t_sel : match select_channels tt st1 (SelSeq [CInt 2; CInt 0]) with
                | Ok s => data_of s | _ => [] end = [[zseq 0 10; zseq 20 10]].
Proof. vm_compute. reflexivity. Qed.

Example t_join_assoc :
  rview (x <- join tt st1 [ASet st2] ;; join tt x [ASet st3])
  = rview (x <- join tt st2 [ASet st3] ;; join tt st1 [ASet x]).
Proof. vm_compute. reflexivity. Qed.

Definition chan_a (r : res set') := match r with Ok s => match select_channels tt s (SelOne (CName "a")) with Ok x => data_of x | _ => [] end | _ => [] end.
Example t_join_data : chan_a (join tt st1 [ASet st2]) = [[zseq 0 10]; [map Z.opp (zseq 20 8)]]
                      /\ chan_a (join tt st2 [ASet st1]) = [[zseq 0 10]; [map Z.opp (zseq 20 8)]].
Proof. vm_compute. split; reflexivity. Qed.

Definition ss := get (set_new tt (TObj tags1) [ASet st1; ASet st2; ASet st3]) s0.
Example t_sel_tags :
  match getitem tt ss (GChan (SelSeq [CName "b"; CInt 2])) with
  | Ok s => tags_eqb (ss_tags s) (get (tags_new (Some 2) [("b", RInt 0); ("c", RInt 1); ("BC", RTuple [0;1])]) tags1)
  | _ => false end = true.
Proof. vm_compute. reflexivity. Qed.
Example t_mask : match getitem tt ss (GBoth (SelSlice full_slice) (RunMask (map (fun s => neqb QA (s_rate s) (q 1)) (ss_signals ss)))) with
                 | Ok s => map (fun x : sync' => this (s_start x)) (ss_signals s) | _ => [] end = [0#1; 20#1]%Q.
Proof. vm_compute. reflexivity. Qed.
Example t_extract : rview (extract_t tt ss (q 5) (q 25) false) = Ok [((5#1), (9#1), (1#1)); ((20#1), (25#1), (1#1))]%Q.
Proof. vm_compute. reflexivity. Qed.
Example t_fnmatch : filter (fun t => fnmatch t "[bc]") ["a"; "b"; "c"; "BC"] = ["b"; "c"].
Proof. vm_compute. reflexivity. Qed.

(** test_inventory.doctest *)
Definition sy (t0 t1 : Z) (n : nat) := get (sync_new tt (repeat (zseq 0 (Z.to_nat (1 + t1 - t0))) n) (q 1) (q t0) None) y0.
Definition mk (d : dict raw) (s : sync') : set' := get (set_new tt (TDict d) [ASync s]) s0.
Definition inv0 : list set' := [
  mk [("Ex1",RInt 0);("Ey1",RInt 1);("Hx1",RInt 2);("Hy1",RInt 3);("E1",RTuple [0;1]);("H1",RTuple [2;3])] (sy 0 20 4);
  mk [("Hx2",RInt 0);("Hy2",RInt 1);("H2",RTuple [0;1])] (sy 10 20 2);
  mk [("Ex2",RInt 0);("Ey2",RInt 1);("Hx2",RInt 2);("Hy2",RInt 3);("E2",RTuple [0;1]);("H2",RTuple [2;3])] (sy 20 30 4)].
Definition jm (ks : list string) := i <- inv_select_channels tt inv0 ks ;; join_merge tt i.
Definition keysof (r : res set') := match r with Ok s => stable_sort str_ltb (dkeys (t_dict (ss_tags s))) | _ => [] end.
Example t_inv1 : keysof (jm ["H1"]) = ["H1";"Hx1";"Hy1"] /\ rview (jm ["H1"]) = Ok [((0#1),(20#1),(1#1))]%Q.
Proof. vm_compute. split; reflexivity. Qed.
Example t_inv2 : keysof (jm ["H1";"H2"]) = ["H1";"H2";"Hx1";"Hx2";"Hy1";"Hy2"] /\ rview (jm ["H1";"H2"]) = Ok [((10#1),(20#1),(1#1))]%Q.
Proof. vm_compute. split; reflexivity. Qed.
Example t_inv3 : keysof (jm ["H1";"E2"]) = ["E2";"Ex2";"Ey2";"H1";"Hx1";"Hy1"] /\ rview (jm ["H1";"E2"]) = Ok [].
Proof. vm_compute. split; reflexivity. Qed.
Example t_inv4 : keysof (jm ["E2";"H2"]) = ["E2";"Ex2";"Ey2";"H2";"Hx2";"Hy2"] /\ rview (jm ["E2";"H2"]) = Ok [((20#1),(30#1),(1#1))]%Q.
Proof. vm_compute. split; reflexivity. Qed.

(** test_merge_consecutive_runs.py, one day = 2 seconds, day 1 = time 0 *)
Definition fake (days rate day : Z) : set' :=
  mk [("Ex", RInt 0)] (get (sync_new tt [zseq 0 (Z.to_nat (2*days*rate))] (q rate) (q (2*(day-1))) None) y0).
Definition jl (l : list set') := join_list tt l.
Definition iv (a b : Z) (r : Z) := ((2*(a-1)) # 1, Qred (((2*(b-1))#1) - (1 # Z.to_pos r)), r # 1)%Q.
Definition mc (l : list set') := rview (x <- jl l ;; merge_consecutive_runs tt x).
Example t_mc1 : mc [fake 7 4 1] = Ok [iv 1 8 4].
Proof. vm_compute. reflexivity. Qed.
Example t_mc4 : mc [fake 7 4 1; fake 2 4 8; fake 1 4 10; fake 3 4 11] = Ok [iv 1 14 4].
Proof. vm_compute. reflexivity. Qed.
Example t_mc12 : mc [fake 7 4 1; fake 1 4 10; fake 3 4 11] = Ok [iv 1 8 4; iv 10 14 4].
Proof. vm_compute. reflexivity. Qed.
Example t_mc21 : mc [fake 7 4 1; fake 1 4 8; fake 3 4 11] = Ok [iv 1 9 4; iv 11 14 4].
Proof. vm_compute. reflexivity. Qed.
Example t_mc23 : mc [fake 7 4 1; fake 2 4 8; fake 1 2 10; fake 3 2 11; fake 4 2 14] = Ok [iv 1 10 4; iv 10 18 2].
Proof. vm_compute. reflexivity. Qed.
Example t_mc131 : mc [fake 7 4 1; fake 2 2 8; fake 1 2 10; fake 3 2 11; fake 4 4 14] = Ok [iv 1 8 4; iv 8 14 2; iv 14 18 4].
Proof. vm_compute. reflexivity. Qed.
Example t_mc1121 : mc [fake 7 4 1; fake 1 2 8; fake 1 2 10; fake 3 2 11; fake 4 4 14]
                   = Ok [iv 1 8 4; iv 8 9 2; iv 10 14 2; iv 14 18 4].
Proof. vm_compute. reflexivity. Qed.
Example t_mc2ch : rview (x <- jl [fake 7 4 1; fake 2 4 8] ;;
                         y <- set_new tt (TDict [("Ey", RInt 0)]) (map ASync (ss_signals x)) ;;
                         m <- merge tt x [y] ;; merge_consecutive_runs tt m) = Ok [iv 1 10 4].
Proof. vm_compute. reflexivity. Qed.
