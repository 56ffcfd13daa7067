(** Specification vocabulary for the robust weights: medians and scales. *)
From Coq Require Import Reals.
From Coquelicot Require Import Complex.
From Verif Require Import Base.
Open Scope R_scope.

(** [m] is the median of [l]: the middle of the values in increasing order, or the
    middle of the two middle ones *)
Definition median_of (l : list R) (m : R) : Prop :=
  exists s, Permutation l s /\ StronglySorted Rle s /\
  ((exists k, length s = (2 * k + 1)%nat /\ nth_error s k = Some m) \/
   (exists k x y, length s = (2 * k + 2)%nat /\ nth_error s k = Some x /\ nth_error s (S k) = Some y /\ m = (x + y) / 2)).

(** [d] is the median distance to the median *)
Definition mad_of (l : list R) (d : R) : Prop :=
  exists m, median_of l m /\ median_of (map (fun x => Rabs (x - m)) l) d.

(** the residuals that are numbers *)
Definition numbers {A} (r : list (option A)) (l : list A) : Prop := map Some l = filter (fun x => match x with Some _ => true | None => false end) r.

(** [s] is the robust scale of a residual vector: the median absolute deviation of
    the magnitudes of the numbers in it, divided by its value 0.44845 for the
    reference distribution *)
Definition scale_of (r : list (option C)) (s : R) : Prop :=
  exists l d, numbers r l /\ mad_of (map Cmod l) d /\ s * (44845 / 100000) = d.

(** more than half of the values are between [a] and [b] *)
Definition mostly_within (l : list R) (a b : R) : Prop :=
  exists inside outside, Permutation l (inside ++ outside) /\ (length outside < length inside)%nat /\
  Forall (fun x => a <= x <= b) inside.
