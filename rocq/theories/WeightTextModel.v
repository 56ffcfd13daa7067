(** Model of the sequences of weights and of their texts: [Weights] (src/razorback/weights.py:23-43),
    [Huber.__str__] (49-50), [Thomson.__init__] (61-64) and [__str__] (66-69),
    [BoundedInfluenceStep.__str__] (96-100) and the names of [bi_weights] (147),
    [mest_weights] and [least_square] (85-86).

    Simplifications: parameters are finite floats, given by their exact values; slices and
    ints are the only indices. *)
From Coq Require Import QArith.
From Verif Require Import Base NumTextModel.
Open Scope nat_scope. Local Open Scope string_scope. Local Open Scope list_scope. Local Open Scope nat_scope.

(** the objects that may be used as weights; a function has a name and a text of its own *)
Inductive wobj : Type :=
| WNone
| WFunc (name text : string)
| WHuber (alpha : Q)
| WThomson (xi : option Q)
| WBounded (inner : wobj) (lower khi : Q)
| WSeq (content : list wobj) (name : option string).

(** weights.py:61-64 *)
Definition thomson_new (xi : option Q) : res wobj :=
  _ <- check (match xi with None => true | Some x => negb (Qle_bool x 0) end) AssertionError ;; Ok (WThomson xi).
(** weights.py:25-27: an empty name counts as none *)
Definition weights_new (content : list wobj) (name : option string) : wobj :=
  WSeq content (match name with Some (String c s) => Some (String c s) | _ => None end).

(** [str] of a weight, weights.py:29-33, 49-50, 66-69, 96-100. [getattr(e, '__name__', str(e))]
    computes [str(e)] in any case; it is [None] (the outer option) for a sequence without name,
    which [join] refuses. *)
Definition name_of (w : wobj) : option (option string) :=
  match w with WFunc n _ => Some (Some n) | WSeq _ n => Some n | _ => None end.
Definition label (w : wobj) (s : string) : option string :=
  match name_of w with Some n => n | None => Some s end.
Fixpoint wstr (w : wobj) : res string :=
  match w with
  | WNone => Ok "None"
  | WFunc _ t => Ok t
  | WHuber a => Ok ("Huber(" ++ gtext 6 a ++ ")")%string
  | WThomson None => Ok "Thomson()"
  | WThomson (Some x) => Ok ("Thomson(" ++ gtext 6 x ++ ")")%string
  | WBounded i l k =>
      s <- wstr i ;;
      let n := match label i s with Some n => n | None => "None" end in
      Ok ("BoundedInfluenceStep(" ++ n ++ ", " ++ gtext 6 l ++ ", " ++ gtext 6 k ++ ")")%string
  | WSeq _ (Some n) => Ok n
  | WSeq c None =>
      labels <- mapM (fun e => s <- wstr e ;; Ok (label e s)) c ;;
      labels <- mapM (of_option TypeError) labels ;;
      Ok ("(" ++ String.concat ", " labels ++ ")")%string
  end.

(** weights.py:35-43 *)
Definition w_iter (w : wobj) : list wobj := match w with WSeq c _ => c | _ => [] end.
Definition w_len (w : wobj) : nat := length (w_iter w).
Definition w_index (w : wobj) (i : Z) : res wobj := py_nth (w_iter w) i.
Definition w_slice (w : wobj) (s : pyslice) : res (list wobj) := py_slice (w_iter w) s.

(** weights.py:85-86 *)
Definition mest_weights_obj : wobj := weights_new [WNone; WHuber (3 # 2); WThomson None] (Some "M_estimator_weights").
Definition least_square_obj : wobj := weights_new [WNone] (Some "least_square_weights").
(** weights.py:132-147, from the thresholds *)
Definition bi_weights_obj (prob : Q) (n_step : Z) (dim lower upper : Q) : wobj :=
  let steps := map (fun i => WBounded (WHuber (3 # 2)) (lower * Qpower 2 (- Z.of_nat i)) (upper * Qpower 2 (Z.of_nat i))) (seq 0 (Z.to_nat n_step)) in
  weights_new ([WNone] ++ rev steps ++ [WBounded (WThomson None) lower upper])
    (Some ("bi_weights(" ++ gtext 6 prob ++ ", " ++ gtext 6 (inject_Z n_step) ++ ", " ++ gtext 6 dim ++ ")")%string).
