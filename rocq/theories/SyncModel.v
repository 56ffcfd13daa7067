(** Model of [SyncSignal], src/razorback/signalset.py:654-828.

    [V] is the type of samples, [K] the type of (callable) calibrations,
    [kone] the unit calibration. Both stay abstract: no operation of this file
    looks inside them. Simplification: numeric calibrations are considered
    already wrapped into constant functions (signalset.py:683-686). *)
From Verif Require Import Base Arith.

Section Sync.
Context {A : Arith} {V K : Type}.

Record sync : Type := mkSync {
  s_data : list (list V);      (* _data *)
  s_cal : list K;              (* _calibrations *)
  s_rate : num A;              (* _sampling_rate *)
  s_start : num A;             (* _start *)
  s_size : nat                 (* _size *)
}.

Variable kone : K.

(** signalset.py:677-697 [SyncSignal.__init__]; [cal = None] or an empty list
    both mean the default *)
Definition sync_new (data : list (list V)) (rate start : num A) (cal : option (list K)) : res sync :=
  let cals := match cal with
              | Some (c :: cs) => c :: cs
              | _ => repeat kone (length data) end in
  _ <- check (length data =? length cals) AssertionError ;;
  match dedup Nat.eqb (map (@length V) data) with
  | [size] => Ok (mkSync data cals rate start size)
  | _ => Err AssertionError
  end.

(** signalset.py:786-790 [_index_to_time] *)
Definition index_to_time (s : sync) (index : Z) : res (num A) :=
  let index := if (index <? 0)%Z then (index + Z.of_nat (s_size s))%Z else index in
  if neqb A (s_rate s) (nzero A) then Err ZeroDivisionError
  else Ok (nadd A (s_start s) (ndiv A (nofZ A index) (s_rate s))).

(** signalset.py:759-762 [stop] *)
Definition s_stop (s : sync) : res (num A) := index_to_time s (Z.of_nat (s_size s) - 1).

(** signalset.py:764-767 [interval] *)
Definition s_interval (s : sync) : res (num A * num A) :=
  stop <- s_stop s ;; Ok (s_start s, stop).

(** signalset.py:769-776 [select] (indices are Python ints >= 0 here) *)
Definition s_select (s : sync) (idx : list nat) : res sync :=
  data <- mapM (nth_res (s_data s)) idx ;;
  cal <- mapM (nth_res (s_cal s)) idx ;;
  sync_new data (s_rate s) (s_start s) (Some cal).

(** signalset.py:778-784 [_time_to_index]; [right = true] is
    [round_to='right'] (ceil), [false] is [round_to='left'] (floor) *)
Definition time_to_index (s : sync) (time : num A) (right : bool) : res Z :=
  let index := nmul A (nsub A time (s_start s)) (s_rate s) in
  if right then nceil A index else nfloor A index.

(** signalset.py:792-810 [extract_i] *)
Definition extract_i (s : sync) (i_start i_stop : option Z) (strict include_last : bool) : res sync :=
  let size := Z.of_nat (s_size s) in
  let i0 := match i_start with None => 0%Z | Some i => i end in
  let i1 := match i_stop with
            | None => size
            | Some i => if include_last then (i + 1)%Z else i end in
  _ <- check (negb strict || ((0 <=? i0) && (i0 <? size) && (0 <=? i1) && (i1 <=? size))%Z) AssertionError ;;
  new_start <- index_to_time s i0 ;;
  sync_new (map (fun e => py_slice1 e i0 i1) (s_data s)) (s_rate s) new_start (Some (s_cal s)).

(** signalset.py:812-828 [SyncSignal.extract_t] *)
Definition sync_extract_t (s : sync) (start stop : num A) (strict : bool) : res sync :=
  s_stop_v <- s_stop s ;;
  '(start, stop) <-
     (if strict then
        _ <- check (nleb A (s_start s) start && nleb A start s_stop_v) AssertionError ;;
        _ <- check (nleb A (s_start s) stop && nleb A stop s_stop_v) AssertionError ;;
        Ok (start, stop)
      else
        let start := pmax (s_start s) start in
        let stop := pmax (s_start s) stop in
        let start := pmin s_stop_v start in
        let stop := pmin s_stop_v stop in
        Ok (start, stop)) ;;
  i_start <- time_to_index s start true ;;
  i_stop <- time_to_index s stop false ;;
  extract_i s (Some i_start) (Some i_stop) strict true.

End Sync.
Arguments sync : clear implicits.
Arguments sync A V K : assert.
