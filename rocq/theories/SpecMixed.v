(** Vocabulary for complete estimates from channels that are combined with each other. *)
From Coq Require Import Reals List String.
From Coquelicot Require Import Complex.
From Verif Require Import Base Arith TagsModel SyncModel SetModel FourierModel MestModel WeightModel RobustModel BiModel FullModel PrefilterModel
  UtilsModel WholeModel SpecWhole SpecRemote.
Open Scope nat_scope.

(** [F 0 + ... + F (n - 1)], see [csum] of SpecRemote.v *)
Definition rsum (n : nat) (F : nat -> R) : R := fold_right Rplus 0%R (map F (seq 0 n)).

(** Runs of [n] channels at the same times. Channel [c] of [s'] is a sum of multiples of
    the channels of [s]; after the calibrations, which go from [v] to [v'] at the frequency
    [f], the multiple of channel [d] is [A c d]. *)
Definition run_mixed (f : R) (n : nat) (A : nat -> nat -> C) (s s' : sync RA R calibration) : Prop :=
  s_rate s' = s_rate s /\ s_start s' = s_start s /\
  length (s_data s) = n /\ length (s_cal s) = n /\ length (s_data s') = n /\ length (s_cal s') = n /\
  (exists N, forall y, In y (s_data s ++ s_data s') -> length y = N) /\
  exists v v' : nat -> C,
    (forall c k, nth_error (s_cal s) c = Some k -> k f = Ok (Some (v c)) /\ v c <> RtoC 0) /\
    (forall c k, nth_error (s_cal s') c = Some k -> k f = Ok (Some (v' c)) /\ v' c <> RtoC 0) /\
    forall c y', nth_error (s_data s') c = Some y' -> exists m : nat -> R,
      (forall t x', nth_error y' t = Some x' -> x' = rsum n (fun d => (m d * nth t (nth d (s_data s) []) 0)%R)) /\
      forall d, d < n -> Cdiv (RtoC (m d)) (v' c) = Cdiv (A c d) (v d).
Definition recordings_mixed (f : R) (n : nat) (A : nat -> nat -> C) (X X' : recordings) : Prop :=
  ss_tags X' = ss_tags X /\ Forall2 (run_mixed f n A) (ss_signals X) (ss_signals X').

(** whatever the values [x] of the channels, the new value of channel [c] is [F x] *)
Definition combines (n : nat) (A : nat -> nat -> C) (c : nat) (F : (nat -> C) -> C) : Prop :=
  forall x, csum n (fun d => Cmult (A c d) (x d)) = F x.
(** the sum of the channels [idx], the one at position [j] taken [m j] times *)
Definition sum_of (idx : list nat) (m : nat -> C) (x : nat -> C) : C := csum (length idx) (fun j => Cmult (m j) (x (nth j idx 0))).

Definition invertible (q : nat) (M : nat -> nat -> C) : Prop :=
  exists N, forall i j, i < q -> j < q -> csum q (fun k => Cmult (M i k) (N k j)) = (if i =? j then RtoC 1 else RtoC 0).
Definition identity (q : nat) (M : nat -> nat -> C) : Prop := forall i j, i < q -> j < q -> M i j = (if i =? j then RtoC 1 else RtoC 0).

(** the inputs [bs] are combined by [M], and output [i] is replaced by [c i] times itself plus
    a sum of the inputs *)
Definition inputs_mixed (n : nat) (A : nat -> nat -> C) (bs : list nat) (M : nat -> nat -> C) : Prop :=
  forall i ch, nth_error bs i = Some ch -> combines n A ch (sum_of bs (M i)).
Definition outputs_mixed (n : nat) (A : nat -> nat -> C) (es bs : list nat) (c : nat -> C) (Z0 : nat -> nat -> C) : Prop :=
  forall i ch, nth_error es i = Some ch -> combines n A ch (fun x => Cplus (Cmult (c i) (x ch)) (sum_of bs (Z0 i) x)).
Definition kept (n : nat) (A : nat -> nat -> C) (idx : list nat) : Prop := forall ch, In ch idx -> combines n A ch (fun x => x ch).

(** a table of [p] rows and [q] columns, and its entries *)
Definition table_of {T} (p q : nat) (t : list (list T)) : Prop := length t = p /\ Forall (fun row => length row = q) t.
Definition at_ij (t : list (list C)) (i j : nat) : C := nth j (nth i t []) (RtoC 0).
(** [z'] times [M] is [z], output by output times [c i], plus [Z0] *)
Definition solves (p q : nat) (M : nat -> nat -> C) (c : nat -> C) (Z0 : nat -> nat -> C) (z z' : list (list C)) : Prop :=
  table_of p q z /\ table_of p q z' /\
  forall i j, i < p -> j < q -> csum q (fun k => Cmult (at_ij z' i k) (M k j)) = Cplus (Cmult (c i) (at_ij z i j)) (Z0 i j).

(** without remote reference *)
Definition local_result (es bs : list nat) (M : nat -> nat -> C) (c : nat -> C) (Z0 : nat -> nat -> C) (r r' : result) : Prop :=
  arr_changed (solves (length es) (length bs) M c Z0) (ir_z listU r) (ir_z listU r') /\
  arr_changed (fun err err' => table_of (length es) (length bs) err /\ table_of (length es) (length bs) err' /\
    (identity (length bs) M -> entrywise (fun i _ x => xmul (Fin (Cmod (c i))) x) err err')) (ir_err listU r) (ir_err listU r') /\
  ir_T listU r' = ir_T listU r /\ ir_ivt listU r' = ir_ivt listU r.
(** with remote reference *)
Definition remote_result (bs rs : list nat) (M : nat -> nat -> C) (r r' : result) : Prop :=
  ir_z listU r' = ir_z listU r /\ ir_err listU r' = ir_err listU r /\ ir_ivt listU r' = ir_ivt listU r /\
  arr_changed (solves (length bs) (length rs) M (fun _ => RtoC 1) (fun _ _ => RtoC 0)) (ir_T listU r) (ir_T listU r').

(** prefilters for which only the space of the inputs counts *)
Definition combination_free (pf : option (@prefilter listK)) : Prop :=
  match pf with
  | None => True
  | Some p => forall (q : nat) (M : nat -> nat -> C) (c : C) (line : list C) (rows rows' : list (list C)),
      c <> RtoC 0 -> invertible q M -> length line = length rows ->
      table_of (length rows) q rows -> table_of (length rows) q rows' ->
      (forall t i, t < length rows -> i < q -> at_ij rows' t i = csum q (fun j => Cmult (M i j) (at_ij rows t j))) ->
      p (map (Cmult c) line) rows' = p line rows
  end.
