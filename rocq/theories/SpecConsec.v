(** Specification vocabulary for [merge_consecutive_runs]. *)
From Coq Require Import QArith Qcanon.
From Verif Require Import Base Arith TagsModel SyncModel SetModel SpecTags SpecSet QcLemmas SpecTime.
Open Scope nat_scope.

(** [s, b) is a maximal block of set flags *)
Definition block (l : list bool) (s b : nat) : Prop :=
  s < b <= length l /\ (forall i, s <= i < b -> nth_error l i = Some true) /\
  (s = 0 \/ nth_error l (s - 1) = Some false) /\ (b = length l \/ nth_error l b = Some false).

Section SpecConsec.
Context {V K : Type}.
Notation sync := (sync QA V K).
Notation sigset := (@sigset QA V K).
Notation seg := (@seg QA V K).

(** |x| <= b *)
Definition abs_le (x b : Qc) : Prop := (- b <= x)%Qc /\ (x <= b)%Qc.
Definition gap (r r' : sync) : Qc := (s_start r' - last_time r)%Qc.
Definition period (r : sync) : Qc := (Q2Qc 1 / s_rate r)%Qc.
(** the tolerance accepted on a gap: 1e-8 + 1e-5 |gap| *)
Definition tolerance (r r' : sync) (b : Qc) : Prop :=
  exists g, (0 <= g)%Qc /\ (g = gap r r' \/ g = - gap r r')%Qc /\
            b = (Q2Qc (1 # 100000000) + Q2Qc (1 # 100000) * g)%Qc.
(** [r'] comes one sampling period after [r], within the tolerance *)
Definition follows (r r' : sync) : Prop :=
  s_rate r' = s_rate r /\ exists b, tolerance r r' b /\ abs_le (period r - gap r r')%Qc b.
(** exactly one period *)
Definition follows_exactly (r r' : sync) : Prop := s_rate r' = s_rate r /\ gap r r' = period r.

(** adjacent elements of a list *)
Definition adjacent {B} (l : list B) (x y : B) : Prop := exists l1 l2, l = l1 ++ x :: y :: l2.

(** [bs] cuts the list of runs [l] at the places, and only there, where a run
    does not follow its predecessor *)
Record blocks (l : list sync) (bs : list (list sync)) : Prop := {
  bl_all : concat bs = l;
  bl_nonempty : forall b, In b bs -> b <> [];
  bl_inside : forall b r r', In b bs -> adjacent b r r' -> follows r r';
  bl_between : forall b b' r r', adjacent bs b b' -> (exists b0, b = b0 ++ [r]) -> (exists b1, b' = r' :: b1) -> ~ follows r r'
}.

(** the run [s] is the runs of [b] put end to end: rate, start and
    calibrations of the first one *)
Definition glued (b : list sync) (s : sync) : Prop :=
  exists r0 b0, b = r0 :: b0 /\ s_start s = s_start r0 /\ s_cal s = s_cal r0 /\
  (forall r, In r b -> s_rate s = s_rate r) /\
  length (s_data s) = length (s_data r0) /\ s_size s = list_sum (map s_size b) /\
  forall c d, nth_error (s_data s) c = Some d ->
    exists ds, Forall2 (fun (r : sync) e => nth_error (s_data r) c = Some e) b ds /\ d = concat ds.

(** [slack l d]: [d] is the sum of the tolerances of the gaps of the chain [l] *)
Inductive slack : list sync -> Qc -> Prop :=
| slack_one : forall r, slack [r] (Q2Qc 0)
| slack_more : forall r r' l b d, tolerance r r' b -> slack (r' :: l) d -> slack (r :: r' :: l) (b + d)%Qc.

(** every sample of [b] is in [s] at the right rank, and its time has moved by at
    most the tolerances of the gaps before it *)
Definition displaced (b : list sync) (s : sync) : Prop :=
  forall b1 r b2 j, b = b1 ++ r :: b2 -> exists d, slack (b1 ++ [r]) d /\
    abs_le (sample_time s (Z.of_nat (list_sum (map s_size b1)) + j) - sample_time r j)%Qc d.

(** every gap within the tolerance is exactly one period *)
Definition exact_gaps (X : sigset) : Prop :=
  forall r r', adjacent (ss_signals X) r r' -> follows r r' -> follows_exactly r r'.
End SpecConsec.
