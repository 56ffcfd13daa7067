(** Vocabulary of the properties of transfer function estimates. *)
From Verif Require Import Base Arith TagsModel SetModel FourierModel MestModel SpecMest UtilsModel.

(** the indices given to apply_prefilter for output [i] *)
Definition pgiven (iv : pidx) (i : nat) (l : list Z) : Prop :=
  match iv with
  | PNone | PFlat [] | PEach [] => l = []
  | PFlat m => l = m
  | PEach ll => nth_error ll i = Some l
  end.
(** index lists are given for exactly [n] outputs *)
Definition pfits (iv : pidx) (n : nat) : Prop :=
  match iv with PEach (l :: ll) => length (l :: ll) = n | _ => True end.

(** when runs have [Nws] windows, window [i] of the whole is window [j] of run [r] *)
Definition in_run (Nws : list nat) (i : Z) (r j : nat) : Prop :=
  exists n, nth_error Nws r = Some n /\ j < n /\ i = Z.of_nat (list_sum (firstn r Nws) + j).

(** an array of [r] rows and [c] columns *)
Definition shaped {T} (width : T -> nat) (x : arr (list T)) (r c : nat) : Prop :=
  match x with
  | Values l => length l = r /\ Forall (fun row => width row = c) l
  | NaNs r' c' => r' = r /\ c' = c
  end.

(** the same for an error estimate *)
Definition eshaped {T} (shape : T -> nat * nat) (x : arr T) (r c : nat) : Prop :=
  match x with Values x => shape x = (r, c) | NaNs r' c' => r' = r /\ c' = c end.

(** the estimates of all frequencies have one shape: (Ne, Nb) with coefficients,
    (Nb, Ne) without *)
Definition one_shape {F R : Type} (coeffs : F -> res R) (l : list F) (Ne Nb : nat) : Prop :=
  Ne = Nb \/ (forall f, In f l -> exists x, coeffs f = Ok x) \/ (forall f, In f l -> exists x, coeffs f = Err x).

(** a prefilter that returns indices of the line it is given *)
Definition legal_prefilter {k : Kern} (pf : option (@prefilter k)) : Prop :=
  match pf with None => True | Some f => forall line rows l, f line rows = Ok l -> legal (length line) l end.
(** a prefilter that never raises *)
Definition total_prefilter {k : Kern} (pf : option (@prefilter k)) : Prop :=
  match pf with None => True | Some f => forall line rows, exists l, f line rows = Ok l end.

(** what the numeric kernels do with the shapes, [bw] being the length of a row of
    [inputs.T]: the solver returns one value per column, [inputs.T] has one column per
    input, [T.dot(br)] one row per row of [T], and the errors have the shape of the
    estimates *)
Definition keep_shapes {k : Kern} (U : UK k) (bw : kB k -> nat) : Prop :=
  (forall e b w z, k_wlse k e b w = Ok z -> b <> [] -> forall n, (forall row, In row b -> bw row = n) -> u_width k U z = n) /\
  (forall inputs row, In row (u_rows k U inputs) -> bw row = length inputs) /\
  (forall T br, length (u_dot k U T br) = length T) /\
  (forall e be z iv x, u_error k U e be z iv = Ok x -> e <> [] -> length z = length e -> length iv = length e ->
     u_eshape k U x = (length e, length be)).
(** [z] is the solution of the problem given by some of the rows of [b] *)
Definition solved {k : Kern} (b : list (kB k)) (z : kZ k) : Prop := exists e' b' w, incl b' b /\ b' <> [] /\ k_wlse k e' b' w = Ok z.
(** the errors exist for estimates that were found from some of the windows *)
Definition errors_exist {k : Kern} (U : UK k) : Prop :=
  forall e be z iv, e <> [] -> length z = length e -> length iv = length e -> Forall (solved (k := k) (u_rows k U be)) z -> exists x, u_error k U e be z iv = Ok x.

(** [l'] holds the members of [l] at the positions [idx] *)
Definition columns {T} (l : list T) (idx : list nat) (l' : list T) : Prop := Forall2 (fun i x => nth_error l i = Some x) idx l'.

(** (shift * j + Lw / 2) / rate + start: the centre of the window number [j] of a run *)
Definition centre {A : Arith} (rate start : num A) (Lw shift j : nat) : num A :=
  nadd A (ndiv A (nadd A (nofZ A (Z.of_nat shift * Z.of_nat j)) (nmul A nhalf (nofZ A (Z.of_nat Lw)))) rate) start.

(** [given or default], for lists *)
Definition list_or {T} (given : option (list T)) (default l : list T) : Prop :=
  match given with Some (x :: xs) => l = x :: xs | _ => l = default end.
(** [given or default], for functions *)
Definition or_else {T} (given default r : option T) : Prop :=
  (exists x, given = Some x /\ r = Some x) \/ (given = None /\ r = default).

(** one estimation: the windows rejected in advance, those of the prefilter, then
    transfer_function *)
Definition stage {k : Kern} (U : UK k) {St : Type} (o : opts k) (outputs inputs : list (list (kE k))) (ws : list (option (wfun k St)))
    (pf : option (@prefilter k)) (iv : pidx) (st : St) (l : list (option (kZ k) * list Z)) (st' : St) : Prop :=
  exists ivs, apply_prefilter U outputs inputs pf iv = Ok ivs /\
    transfer_function o outputs (u_rows k U inputs) ws None (IvEach ivs) st = (Ok l, st').
(** the estimates in the results of transfer_function *)
Definition estimates {k : Kern} (l : list (option (kZ k) * list Z)) (z : list (kZ k)) : Prop := map fst l = map Some z.
(** the windows rejected for at least one output, in increasing order *)
Definition rejected_somewhere {k : Kern} (l : list (option (kZ k) * list Z)) (m : list Z) : Prop :=
  StronglySorted Z.lt m /\ forall j, In j m <-> exists x, In x l /\ In j (snd x).

(** the tag of the remote channels; the empty string counts as none *)
Definition with_remote (r : option string) (n : string) : Prop := r = Some n /\ n <> EmptyString.
Definition no_remote (r : option string) : Prop := r = None \/ r = Some EmptyString.

(** what the last stage of an estimate works with: the electric channels, the inputs,
    the windows rejected in advance, and the state of the weight functions *)
Definition last_stage {k : Kern} (U : UK k) {V K St : Type} (a : @iargs k St) (X : @sigset (kA k) V K) (coeffs : list (list (kE k))) (st : St)
    (e inputs : list (list (kE k))) (given : pidx) (st1 : St) : Prop :=
  exists es bs b, t_get (ss_tags X) (ia_elec a) = Ok es /\ columns coeffs es e /\ t_get (ss_tags X) (ia_mag a) = Ok bs /\ columns coeffs bs b /\
  ((no_remote (ia_remote a) /\ inputs = b /\ given = PNone /\ st1 = st) \/
   exists rn rs br ws pf l T m, with_remote (ia_remote a) rn /\ t_get (ss_tags X) rn = Ok rs /\ columns coeffs rs br /\
     list_or (ia_remote_weights a) (ia_weights a) ws /\ or_else (ia_remote_prefilter a) (ia_prefilter a) pf /\
     stage U (ia_opts a) b br ws pf PNone st l st1 /\ estimates l T /\ rejected_somewhere l m /\
     inputs = u_dot k U T br /\ given = PEach (repeat m (length es))).
