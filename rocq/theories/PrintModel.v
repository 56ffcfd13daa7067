(** Model of the lines printed by src/razorback/utils.py:91-119, 189-296 and 350-371: the
    functions of UtilsModel.v and MassModel.v once more, together with their output.

    Simplifications: [str] of an exception is not modelled, a line [Failed x] stands for the
    text of the exception [x]. *)
From Coq Require Import QArith.
From Flocq Require Import IEEE754.BinarySingleNaN.
From Verif Require Import Base Arith FloatArith TagsModel SyncModel SetModel InvModel FourierModel MestModel UtilsModel MassModel ReprModel NumTextModel.
Open Scope nat_scope.

(** ** Lines *)
Inductive line (F : Type) : Type :=
| Starting (freq : F)          (* utils.py:223 *)
| Failed (x : exn)             (* utils.py:240 and 264 *)
| Percent (done total : nat).  (* utils.py:107 and 364 *)
Arguments Starting {F}. Arguments Failed {F}. Arguments Percent {F}.

(** the exact value of a finite float, as a fraction *)
Definition fraction (x : b64) : Z * Z :=
  match x with
  | B754_finite s m e _ =>
      let n := if s then Zneg m else Zpos m in
      if (0 <=? e)%Z then (n * 2 ^ e, 1)%Z else (n, 2 ^ (- e))%Z
  | _ => (0, 1)%Z
  end.
(** ['%.1f' % x] for a finite number that is not negative *)
Definition tenths (x : b64) : Z := let '(a, d) := fraction x in rhe (10 * a) d.
Definition fixed1 (x : b64) : string :=
  let t := Z.to_nat (tenths x) in (nat_text (t / 10) ++ "." ++ nat_text (t mod 10))%string.
(** utils.py:107: [100. * (k*m+i) / (n*m)] *)
Definition share (done total : nat) : b64 := f_div (f_mul (f_ofZ 100) (f_ofZ (Z.of_nat done))) (f_ofZ (Z.of_nat total)).
(** utils.py:107, 223: the texts *)
Definition percent (done total : nat) : string := (fixed1 (share done total) ++ "%")%string.
Definition line_text {F} (val : F -> Q) (str : exn -> string) (l : line F) : string :=
  match l with
  | Starting f => ("starting frequency " ++ gtext 6 (val f))%string
  | Failed x => str x
  | Percent d t => percent d t
  end.

(** ** Printing programs *)
Section Said.
Context {F : Type}.
(** the lines of [l] come first *)
Definition say {R} (l : list (line F)) (x : R * list (line F)) : R * list (line F) := (fst x, l ++ snd x).
(** [for i, x in enumerate(l)] *)
Fixpoint ploop {St T R} (f : nat -> T -> St -> (res R * St) * list (line F)) (i : nat) (l : list T) (st : St) : (res (list R) * St) * list (line F) :=
  match l with
  | [] => ((Ok [], st), [])
  | x :: l =>
      let '((r, st), o) := f i x st in
      match r with
      | Err e => ((Err e, st), o)
      | Ok r => let '((rs, st), o') := ploop f (S i) l st in ((rs <- rs ;; Ok (r :: rs), st), o ++ o')
      end
  end.
End Said.

Section Impedance.
Context {k : Kern} (U : UK k) {V K St : Type}.
Notation A := (kA k).
Notation E := (kE k).
Notation line := (line (num A)).
Notation iargs := (@iargs k St).

(** utils.py:229-252 *)
Definition p_stage1 (a : iargs) (b : list (list E)) (br : option (list (list E))) (nE : nat) (st : St) :
    (res (option (option (list (kZ k)) * list (list E) * pidx)) * St) * list line :=
  match br with
  | None => ((Ok (Some (None, b, PNone)), st), [])
  | Some br =>
      match apply_prefilter U b br (remote_prefilter a) PNone with
      | Err x => ((Err x, st), [])
      | Ok iv0 =>
          let '(r, st) := estimate U a b br (remote_weights a) iv0 st in
          match r with
          | Err x => ((if ia_silent a then Ok None else Err x, st), [Failed x])
          | Ok l => ((T <- rows_of ValueError (map fst l) ;;
                      Ok (Some (Some T, u_dot k U T br, PEach (repeat (merged (map snd l)) nE))), st), [])
          end
      end
  end.

(** utils.py:225-296 *)
Definition p_coeffs (a : iargs) (X : @sigset A V K) (coeffs : list (list E)) (w : windows) (st : St) : (res (ires U) * St) * list line :=
  let pick t := idx <- t_get (ss_tags X) t ;; mapM (fun i => nth_res coeffs i) idx in
  match (e <- pick (ia_elec a) ;; b <- pick (ia_mag a) ;;
         br <- match remote_name a with None => Ok None | Some r => x <- pick r ;; Ok (Some x) end ;; Ok (e, b, br)) with
  | Err x => ((Err x, st), [])
  | Ok (e, b, br) =>
      let nbr := match br with Some l => length l | None => 0 end in
      let failed := mkIres U (NaNs (length e) (length b)) [] (NaNs (length e) (length b)) (NaNs (length b) nbr) in
      let '((s1, st), o) := p_stage1 a b br (length e) st in
      match s1 with
      | Err x => ((Err x, st), o)
      | Ok None => ((Ok failed, st), o)
      | Ok (Some (T, be, iv1)) =>
          match apply_prefilter U e be (ia_prefilter a) iv1 with
          | Err x => ((Err x, st), o)
          | Ok iv2 =>
              let '(r, st) := estimate U a e be (ia_weights a) iv2 st in
              match r with
              | Err x => ((if ia_silent a then Ok failed else Err x, st), o ++ [Failed x])
              | Ok l =>
                  let ivid := map snd l in
                  let ivt := if ia_keep a then map (invalid_times (run_windows X w)) ivid else map (fun _ => []) ivid in
                  ((z <- rows_of IndexError (map fst l) ;;
                    err <- u_error k U e be z ivid ;;
                    Ok (mkIres U (Values z) ivt (Values err) (match T with Some T => Values T | None => NaNs (length b) 0 end)), st), o)
              end
          end
      end
  end.

Section Data.
Variable fourier : @sigset A V K -> num A -> res (list (list E) * windows).

(** utils.py:213-228 *)
Definition p_one (a : iargs) (X : @sigset A V K) (freq : num A) (st : St) : (res (ires U) * St) * list line :=
  match (e <- t_get (ss_tags X) (ia_elec a) ;; b <- t_get (ss_tags X) (ia_mag a) ;;
         r <- match remote_name a with None => Ok [] | Some r => t_get (ss_tags X) r end ;; Ok (length e, length b, length r)) with
  | Err x => ((Err x, st), [])
  | Ok (Ne, Nb, Nr) =>
      say [Starting freq]
      match fourier X freq with
      | Err _ => ((Ok (mkIres U (NaNs Nb Ne) [] (NaNs Nb Ne) (NaNs Nb Nr)), st), [])
      | Ok (coeffs, w) => p_coeffs a X coeffs w st
      end
  end.

(** utils.py:124-186 *)
Definition p_impedance (a : iargs) (X : @sigset A V K) (l_freq : list (num A)) (st : St) : (res (list (ires U)) * St) * list line :=
  let '((rs, st), o) := ploop (fun _ => p_one a X) 0 l_freq st in
  ((rs <- rs ;;
    _ <- stack (map (fun r => arr_shape (rows_shape U) (ir_z U r)) rs) ;;
    _ <- stack (map (fun r => arr_shape (u_eshape k U) (ir_err U r)) rs) ;;
    _ <- stack (map (fun r => arr_shape (rows_shape U) (ir_T U r)) rs) ;;
    Ok rs, st), o).
End Data.

Section Mass.
Notation sigset := (@sigset A V K).
Notation inventory := (@inventory A V K).
Variable kone : K.
Variable fourier : sigset -> num A -> res (list (list E) * windows).
Variable rorder : inventory -> list (num A).

(** utils.py:91-119: the combination number [c] of [n] *)
Definition p_combination (inv : inventory) (names : list string) (l_freq : list (num A)) (intervals : list (num A * num A)) (a : iargs) (n c : nat)
    (rind : list (option nat)) (st : St) : (res (list (option nat) * list (list (ires U))) * St) * list line :=
  match (rt <- remote_tags names rind ;; d <- combined_data kone rorder inv rt ;; Ok (rt, d)) with
  | Err x => ((Err x, st), [])
  | Ok (rt, data) =>
      let a := with_remote a (match rt with [] => None | _ => Some "Bremote"%string end) in
      let m := length intervals in
      let '((rs, st), o) := ploop (fun i iv st =>
        say [Percent (c * m + i) (n * m)]
        match extract_t kone data (fst iv) (snd iv) false with
        | Err x => ((Err x, st), [])
        | Ok rdata => p_impedance fourier a rdata l_freq st
        end) 0 intervals st in
      ((rs <- rs ;; Ok (rind, rs), st), o)
  end.

(** utils.py:61-121 *)
Definition p_mass (inv : inventory) (names : list string) (l_freq : list (num A)) (intervals : list (num A * num A)) (a : iargs) (combine : bool) (st : St) :
    (res (list (list (option nat) * list (list (ires U)))) * St) * list line :=
  let l := combinations (length names) combine in
  ploop (p_combination inv names l_freq intervals a (length l)) 0 l st.

Context {R : Type}.
Variable pvalue : list E -> list (kB k) -> res R.

(** utils.py:350-371 *)
Definition p_values_combination (names : list string) (l_freq : list (num A)) (intervals : list (num A * num A)) (n c : nat) (rind : list (option nat)) (X : sigset) :
    (res (list (list (list R) * list (list (num A)))) * sigset) * list line :=
  match (rt <- remote_tags names rind ;; rcomb <- mapM (fun t => t_get (ss_tags X) t) rt ;;
         match concat rcomb with
         | [] => Ok (X, None)
         | Bremote => t <- t_set (ss_tags X) "Bremote" (RTuple (map Z.of_nat Bremote)) ;; Ok (mkSet (ss_signals X) t, Some "Bremote"%string)
         end) with
  | Err x => ((Err x, X), [])
  | Ok (X, remote) =>
      let m := length intervals in
      ploop (fun i iv X =>
        ((rdata <- extract_t kone X (fst iv) (snd iv) false ;; prefilter_values U fourier pvalue rdata l_freq remote "E" "B", X), [Percent (c * m + i) (n * m)]))
        0 intervals X
  end.

(** utils.py:333-373 *)
Definition p_values_mass (X : sigset) (names : list string) (l_freq : list (num A)) (intervals : list (num A * num A)) :
    (res (list (list (list (list R) * list (list (num A))))) * sigset) * list line :=
  match (_ <- t_getattr (ss_tags X) "E" ;; t_getattr (ss_tags X) "B") with
  | Err x => ((Err x, X), [])
  | Ok _ =>
      let l := combinations (length names) true in
      ploop (p_values_combination names l_freq intervals (length l)) 0 l X
  end.
End Mass.
End Impedance.
