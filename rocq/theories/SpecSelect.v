(** Specification vocabulary for selections. *)
From Verif Require Import Base Arith TagsModel SyncModel SetModel SpecTags SpecSet.

(** tag names that collide with attribute or parameter names used by the code;
    a tag so named breaks some operations (TypeError or a wrong range check) *)
Definition special_names : list string := ["indices"; "items"; "keys"; "n"; "self"]%string.
Definition plain (t : tags) : Prop := forall k l, reads t k l -> ~ In k special_names.

Section SpecSelect.
Context {A : Arith} {V K : Type}.
Notation sync := (sync A V K).
Notation sigset := (@sigset A V K).

(** channel [i] is designated by one identifier *)
Definition names_chan (X : sigset) (c : chan) (i : nat) : Prop :=
  match c with
  | CName k => exists l, reads (ss_tags X) k l /\ In i l
  | CInt z => z = Z.of_nat i /\ i < t_n (ss_tags X)
  end.
(** an identifier the set does not know *)
Definition unknown (X : sigset) (c : chan) : Prop :=
  match c with
  | CName k => forall l, ~ reads (ss_tags X) k l
  | CInt z => (z < 0 \/ Z.of_nat (t_n (ss_tags X)) <= z)%Z
  end.
Definition chosen (X : sigset) (s : chansel) (i : nat) : Prop :=
  match s with
  | SelOne c => names_chan X c i
  | SelSeq l => exists c, In c l /\ names_chan X c i
  | SelSlice sl => exists l, slice_range sl (t_n (ss_tags X)) = Ok l /\ In (Z.of_nat i) l
  end.
Definition sel_known (X : sigset) (s : chansel) : Prop :=
  match s with
  | SelOne c => ~ unknown X c
  | SelSeq l => forall c, In c l -> ~ unknown X c
  | SelSlice sl => sl_step sl <> Some 0%Z
  end.
(** what a selection does, run by run *)
Definition run_selected (sel : list nat) (s s' : sync) : Prop :=
  s_rate s' = s_rate s /\ s_start s' = s_start s /\ s_size s' = s_size s /\
  Forall2 (fun i d => nth_error (s_data s) i = Some d) sel (s_data s') /\
  Forall2 (fun i k => nth_error (s_cal s) i = Some k) sel (s_cal s').
End SpecSelect.

(** numpy indexing of range(n) *)
Definition wraps_to (n : nat) (z : Z) (i : nat) : Prop :=
  i < n /\ (z = Z.of_nat i \/ z + Z.of_nat n = Z.of_nat i /\ z < 0)%Z.
Definition picks (n : nat) (r : runsel) (idx : list nat) : Prop :=
  match r with
  | RunInt z => exists i, idx = [i] /\ wraps_to n z i
  | RunIdx l => Forall2 (wraps_to n) l idx
  | RunMask m => length m = n /\ StronglySorted lt idx /\
                 (forall i, In i idx <-> nth_error m i = Some true)
  | RunSlice sl => slice_range sl n = Ok (map Z.of_nat idx)
  end.
Definition out_of_range (n : nat) (r : runsel) : Prop :=
  match r with
  | RunInt z => (z < - Z.of_nat n \/ Z.of_nat n <= z)%Z
  | RunIdx l => exists z, In z l /\ (z < - Z.of_nat n \/ Z.of_nat n <= z)%Z
  | RunMask m => length m <> n
  | RunSlice _ => False
  end.
