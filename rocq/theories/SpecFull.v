(** Vocabulary for the complete estimation: the weights of the library, and the
    change of the data under which the estimates must follow. *)
From Coquelicot Require Import Complex.
From mathcomp Require Import all_ssreflect all_algebra.
From Verif Require Import CField.
From Verif Require Import Base Arith MestModel WeightModel.
Set Implicit Arguments.
Unset Strict Implicit.
Import GRing.Theory.
Local Open Scope ring_scope.

(** Huber, Thomson, and bounded influence of one of these: no function of the user *)
Fixpoint of_library {k : Kern} (w : weight (k := k)) : bool :=
  match w with
  | Pure _ => false
  | Huber _ | Thomson _ _ => true
  | BoundedInfluence _ inner _ _ => of_library inner
  end.

Section Change.
Variables (q : nat) (c : C) (M : 'M[C]_q).

(** one row: the inputs are expressed in another basis *)
Definition changed_row (r : 'rV[C]_q) : 'rV[C]_q := r *m M.

(** one output: [c * e + b . z0], value by value *)
Definition changed_output (b : list 'rV[C]_q) (z0 : 'cV[C]_q) (e : list C) : list C :=
  List.map (fun p => c * fst p + (snd p *m z0) 0 0) (combine e b).

(** the estimate that belongs to it *)
Definition changed_estimate (z0 z : 'cV[C]_q) : 'cV[C]_q := invmx M *m (c *: z + z0).
End Change.

(** the output follows the inputs exactly *)
Definition noise_free (q : nat) (b : list 'rV[C]_q) (z : 'cV[C]_q) : list C := List.map (fun r => (r *m z) 0 0) b.

(** more than half of the rows fit [z] exactly *)
Definition mostly_exact (q : nat) (b : list 'rV[C]_q) (e : list C) (z : 'cV[C]_q) : Prop :=
  exists fit other, Permutation (combine e b) (fit ++ other)%list /\ (List.length other < List.length fit)%coq_nat /\
  List.Forall (fun p => fst p = (snd p *m z) 0 0) fit.

(** the rows determine the estimate: their Gram matrix is invertible *)
Definition full_rank (q : nat) (b : list 'rV[C]_q) : Prop :=
  (\sum_(r <- b) ((map_mx cjC r)^T *m r) : 'M[C]_q) \in unitmx.

(** ** Another order of the rows *)
(** the entry at [j] is the old one at the [j]th entry of [p] *)
Definition reordered {T} (p : list nat) (l l' : list T) : Prop :=
  List.length l' = List.length p /\ forall j i, nth_error p j = Some i -> nth_error l' j = nth_error l i.

(** the same rows, named by their positions *)
Definition same_rows (p : list nat) (iv iv' : list Z) : Prop :=
  (forall z, In z iv -> exists i, In i p /\ z = Z.of_nat i) /\
  forall z, In z iv' <-> exists j i, z = Z.of_nat j /\ nth_error p j = Some i /\ In (Z.of_nat i) iv.

(** rows to leave out: none, the same for all outputs, one list per output *)
Definition same_rows_given (p : list nat) (iv iv' : ivarg) : Prop :=
  match iv, iv' with
  | IvNone, IvNone => True
  | IvFlat l, IvFlat l' => same_rows p l l'
  | IvEach l, IvEach l' => List.Forall2 (same_rows p) l l'
  | _, _ => False
  end.
