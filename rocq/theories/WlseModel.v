(** Model of the weighted least-square estimate, src/razorback/mestimator.py:265-305,
    with exact arithmetic: matrices over a field with a conjugation. *)
From mathcomp Require Import all_ssreflect all_algebra.
Set Implicit Arguments.
Unset Strict Implicit.
Unset Printing Implicit Defensive.
Import GRing.Theory Num.Theory.
Local Open Scope ring_scope.

Section Wlse.
Variables (F : fieldType) (cj : {rmorphism F -> F}).

(** mestimator.py:265-267 [H] *)
Definition herm m n (A : 'M[F]_(m, n)) : 'M[F]_(n, m) := (map_mx cj A)^T.

(** mestimator.py:270-281 [dotdiag], for no weights or one weight per row *)
Definition dotdiag n p (d : option 'rV[F]_n) (x : 'M[F]_(n, p)) : 'M[F]_(n, p) :=
  if d is Some d then diag_mx d *m x else x.

(** the matrix and the right-hand side of the normal equations (mestimator.py:303-304) *)
Definition normal n q (y : 'M[F]_(n, q)) (w : option 'rV[F]_n) : 'M[F]_q := herm y *m dotdiag w y.
Definition rhs n p q (x : 'M[F]_(n, p)) (y : 'M[F]_(n, q)) (w : option 'rV[F]_n) : 'M[F]_(q, p) := herm y *m dotdiag w x.

(** mestimator.py:284-305 [wlse]; [None] stands for the LinAlgError of a singular
    matrix *)
Definition wlse n p q (x : 'M[F]_(n, p)) (y : 'M[F]_(n, q)) (w : option 'rV[F]_n) : option 'M[F]_(q, p) :=
  if normal y w \in unitmx then Some (invmx (normal y w) *m rhs x y w) else None.

(** The same on lists of rows, as used by the estimation loop (MestModel.v). A
    list of one weight is broadcast. *)
Definition column (e : seq F) : 'cV[F]_(size e) := \col_i nth 0 e i.
Definition rows q n (b : seq 'rV[F]_q) : 'M[F]_(n, q) := \matrix_(i < n, j < q) nth 0 b i 0 j.
Definition weights n (w : option (seq F)) : option 'rV[F]_n :=
  omap (fun w => \row_(i < n) if size w == 1%N then nth 0 w 0 else nth 0 w i) w.
Definition wlse_rows q (e : seq F) (b : seq 'rV[F]_q) (w : option (seq F)) : option 'cV[F]_q :=
  wlse (column e) (rows (size e) b) (weights (size e) w).
End Wlse.

(** The leverage of the rows, weights.py:116-117: [A = H(b).dot(dotdiag(w, b))] and
    [w * np.sum(linalg.solve(A, H(b)) * b.T, axis=0).real]; the weight of the first
    iteration is the scalar 1, here [None]. *)
Section Leverage.
Variable C : numClosedFieldType.
Definition leverage n q (b : 'M[C]_(n, q)) (w : option 'rV[C]_n) : option 'rV[C]_n :=
  let A := normal (@conjC C) b w in
  if A \in unitmx then
    Some (\row_i ((if w is Some w then w 0 i else 1) * 'Re (\sum_j (invmx A *m herm (@conjC C) b) j i * b^T j i)))
  else None.
End Leverage.
