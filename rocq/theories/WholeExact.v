(** Least squares with and without remote reference, for a list of frequencies. *)
From Coq Require Import Reals Lra.
From Coquelicot Require Import Complex.
From mathcomp Require Import all_ssreflect all_algebra.
From Verif Require Import WlseModel WlseProofs CField RemoteMx.
From Verif Require Import Base BaseLemmas Arith TagsModel SyncModel SetModel FourierModel MestModel SpecMest WeightModel RobustModel BiModel
  SimProofs FullModel SpecFull FullProofs PrefilterModel UtilsModel SpecUtils WholeModel WholeScale WholeUnits SpecWhole SpecRemote WholeImpedance WholeRemote.
Set Implicit Arguments.
Unset Strict Implicit.
Unset Printing Implicit Defensive.

Section Whole.
Variables (fo : fopts) (a : arguments) (X : recordings) (z : R -> list (list C)) (es bs : list nat) (nr : nat).
Hypothesis (Tz : forall f, table es bs (z f)).
Hypothesis (Nes : es <> [::]).
Variable (P : R -> result -> Prop).

Lemma exact_list l h : (forall f, List.In f l -> forall h, exists x, impedance_one listU (coefficients fo) a X f h = (Ok x, h) /\ exactly es bs (z f) x nr /\ P f x) ->
  exists out, impedance_results listU (coefficients fo) a X l h = (Ok out, h) /\ List.Forall2 (fun f x => exactly es bs (z f) x nr /\ P f x) l out.
Proof.
elim: l => [|f l IH] Hl; first by exists [::]; split=> //; constructor.
have [x [E1 E2]] := Hl f (or_introl erefl) h.
have [out [E3 E4]] := IH (fun g Hg => Hl g (or_intror Hg)).
exists (x :: out); rewrite /= E1 E3; split=> //; by constructor.
Qed.

Lemma stack_same (s : nat * nat) (l : list (nat * nat)) : List.Forall (eq s) l -> stack l = Ok tt.
Proof.
case: l => //= -[r c] l F; inversion F as [|? ? E F']; subst.
have -> : forallb (fun s => (fst s =? r) && (snd s =? c))%nat l = true; last by [].
apply/List.forallb_forall => p Hp; move/List.Forall_forall: F' => /(_ _ Hp) <- /=; by rewrite !Nat.eqb_refl.
Qed.

Lemma whole_exact l : (forall f, List.In f l -> forall h, exists x, impedance_one listU (coefficients fo) a X f h = (Ok x, h) /\ exactly es bs (z f) x nr /\ P f x) ->
  exists out, whole_impedance fo a X l = Ok out /\ List.length out = List.length l /\
    forall i f x, nth_error l i = Some f -> nth_error out i = Some x -> ir_z listU x = Values (z f) /\ ir_ivt listU x = repeat [::] (List.length es) /\ P f x.
Proof.
move=> Hl; have [out [E F]] := exact_list (fresh listW) Hl.
exists out; rewrite /whole_impedance /impedance E /=.
have G (T : Type) (s : T) (g : result -> T) : (forall f x, exactly es bs (z f) x nr /\ P f x -> s = g x) -> List.Forall (eq s) (List.map g out).
  move=> HG; apply/List.Forall_map; elim: F => [|f x l' out' Hx _ IH]; constructor=> //; exact: HG Hx.
have Sz f : rows_shape (k := listK) listU (z f) = (size es, size bs).
  have [L A] := Tz f; rewrite /rows_shape L; congr pair; case: (z f) L A => [|r t] /= L A; first by case: (es) Nes L.
  by inversion A.
have G1 : List.Forall (eq (size es, size bs)) (List.map (fun r : result => arr_shape (rows_shape (k := listK) listU) (ir_z listU r)) out).
  by apply: G => f x [[-> _] _] /=; rewrite Sz.
have G2 : List.Forall (eq (size es, size bs)) (List.map (fun r : result => arr_shape (u_eshape listK listU) (ir_err listU r)) out).
  by apply: G => f x [[_ [_ [-> _]]] _].
have G3 : List.Forall (eq (size bs, nr)) (List.map (fun r : result => arr_shape (rows_shape (k := listK) listU) (ir_T listU r)) out).
  by apply: G => f x [[_ [_ [_ ->]]] _].
rewrite (stack_same G1) /= (stack_same G2) /= (stack_same G3) /=.
split=> //; split; first by rewrite (Forall2_len _ _ _ F).
move=> i f x Hf Hx; have [x' [Hx' [[E1 [E2 _]] E3]]] := Forall2_nth_error _ _ _ _ _ F Hf; by move: Hx'; rewrite Hx => -[->].
Qed.
End Whole.

Theorem whole_remote fo a X l z es bs rs r :
  least_squares a -> t_get (ss_tags X) (ia_elec a) = Ok es -> t_get (ss_tags X) (ia_mag a) = Ok bs ->
  remote_name a = Some r -> t_get (ss_tags X) r = Ok rs -> es <> [::] -> bs <> [::] ->
  (forall f, List.In f l -> exists coeffs w n, coefficients fo X f = Ok (coeffs, w) /\ (0 < n)%coq_nat /\
     recorded coeffs n (es ++ bs ++ rs) /\ separate coeffs n rs /\ sees coeffs n rs bs /\ related coeffs n es bs rs (z f)) ->
  exists out, whole_impedance fo a X l = Ok out /\ List.length out = List.length l /\
    forall i f x, nth_error l i = Some f -> nth_error out i = Some x -> ir_z listU x = Values (z f) /\ ir_ivt listU x = repeat [::] (List.length es) /\
      forall coeffs w n T, coefficients fo X f = Ok (coeffs, w) -> recorded coeffs n es -> related coeffs n bs rs rs T -> ir_T listU x = Values T.
Proof.
move=> Ha He Hb Hr Tr Ne Nb Hl.
pose z' f := if List.in_dec Req_EM_T f l then z f else List.repeat (List.repeat (RtoC 0) (size bs)) (size es).
have Tz f : table es bs (z' f).
  rewrite /z'; case: (List.in_dec Req_EM_T f l) => Hf; first by have [c [w [n [_ [_ [_ [_ [_ [T _]]]]]]]]] := Hl f Hf.
  split; first by rewrite List.repeat_length.
  apply/List.Forall_forall => row Hrow; by rewrite (List.repeat_spec _ _ _ Hrow) List.repeat_length.
have Ez f : List.In f l -> z' f = z f by rewrite /z'; case: (List.in_dec Req_EM_T f l).
have [f Hf h|out [E1 [E2 E3]]] := @whole_exact fo a X z' es bs (size rs) Tz Ne (fun f x => forall coeffs w n T, coefficients fo X f = Ok (coeffs, w) -> recorded coeffs n es -> related coeffs n bs rs rs T -> ir_T listU x = Values T) l.
  have [coeffs [w [n [Ec [Hn [Rc [Sr [Vr Re]]]]]]]] := Hl f Hf; rewrite (Ez f Hf).
  rewrite /impedance_one He Hb Hr /= Tr /= Ec.
  have R1 : recorded coeffs n es by move=> c Hc; apply: Rc; apply/List.in_app_iff; left.
  have R2 : recorded coeffs n bs by move=> c Hc; apply: Rc; apply/List.in_app_iff; right; apply/List.in_app_iff; left.
  have R3 : recorded coeffs n rs by move=> c Hc; apply: Rc; apply/List.in_app_iff; right; apply/List.in_app_iff; right.
  have Hn' : is_true (leq 1 n) by apply/ltP.
  have [x [Ex [Xx TX]]] := @remote_coeffs a X coeffs w h n es bs (z f) Ha He Hb Hn' Ne Nb R1 R2 r rs Hr Tr R3 Sr Vr Re.
  exists x; split=> //; split=> // coeffs' w' n' T [<- _] R1' RT; apply: TX.
  suff <- : n' = n by [].
  case: (es) Ne R1 R1' => // c es' _ /(_ c (or_introl erefl)) [l1 [E1 <-]] /(_ c (or_introl erefl)) [l2 [E2 <-]]; by move: E2; rewrite E1 => -[->].
exists out; split=> //; split=> // i f x Hf Hx; rewrite -(Ez f); [exact: (E3 i)|exact: (List.nth_error_In _ _ Hf)].
Qed.

Theorem whole_local fo a X l z es bs :
  least_squares a -> t_get (ss_tags X) (ia_elec a) = Ok es -> t_get (ss_tags X) (ia_mag a) = Ok bs ->
  remote_name a = None -> es <> [::] -> bs <> [::] ->
  (forall f, List.In f l -> exists coeffs w n, coefficients fo X f = Ok (coeffs, w) /\ (0 < n)%coq_nat /\
     recorded coeffs n (es ++ bs) /\ separate coeffs n bs /\ related coeffs n es bs bs (z f)) ->
  exists out, whole_impedance fo a X l = Ok out /\ List.length out = List.length l /\
    forall i f x, nth_error l i = Some f -> nth_error out i = Some x -> ir_z listU x = Values (z f) /\ ir_ivt listU x = repeat [::] (List.length es).
Proof.
move=> Ha He Hb Hr Ne Nb Hl.
pose z' f := if List.in_dec Req_EM_T f l then z f else List.repeat (List.repeat (RtoC 0) (size bs)) (size es).
have Tz f : table es bs (z' f).
  rewrite /z'; case: (List.in_dec Req_EM_T f l) => Hf; first by have [c [w [n [_ [_ [_ [_ [T _]]]]]]]] := Hl f Hf.
  split; first by rewrite List.repeat_length.
  apply/List.Forall_forall => row Hrow; by rewrite (List.repeat_spec _ _ _ Hrow) List.repeat_length.
have Ez f : List.In f l -> z' f = z f by rewrite /z'; case: (List.in_dec Req_EM_T f l).
have [f Hf h|out [E1 [E2 E3]]] := @whole_exact fo a X z' es bs 0 Tz Ne (fun _ _ => True) l.
  have [coeffs [w [n [Ec [Hn [Rc [Sr Re]]]]]]] := Hl f Hf; rewrite (Ez f Hf).
  rewrite /impedance_one He Hb Hr /= Ec.
  have R1 : recorded coeffs n es by move=> c Hc; apply: Rc; apply/List.in_app_iff; left.
  have R2 : recorded coeffs n bs by move=> c Hc; apply: Rc; apply/List.in_app_iff; right.
  have Hn' : is_true (leq 1 n) by apply/ltP.
  have L : exists x, impedance_coeffs listU a X coeffs w h = (Ok x, h) /\ exactly es bs (z f) x 0 by apply: (@local_coeffs a X coeffs w h n es bs (z f)).
  by have [x [Ex Xx]] := L; exists x.
exists out; split=> //; split=> // i f x Hf Hx; rewrite -(Ez f); [by have [? [? _]] := E3 i f x Hf Hx|exact: (List.nth_error_In _ _ Hf)].
Qed.
