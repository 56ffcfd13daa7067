(** Frequencies and electric channels are processed as if each were alone. *)
From Coq Require Import Reals.
From Coquelicot Require Import Complex.
From Verif Require Import Base BaseLemmas Arith TagsModel SyncModel SetModel FourierModel MestModel SpecMest MestProofs SpecMestAll MestAll WeightModel WeightProofs
  RobustModel BiModel UtilsModel SpecUtils UtilsProofs WholeModel SpecAlone AloneError.

(** ** The outputs of transfer_function *)
Section Outputs.
Context {k : Kern} (K : WK k).
Variables (o : opts k) (b : list (kB k)) (ws : list (option (@weight k))).
Notation W := (weightings K ws).

Definition alone (e : list (kE k)) (iv : list Z) : res (list (option (kZ k) * list Z)) :=
  fst (transfer_function o [e] b W None (IvEach [iv]) (fresh K)).

Lemma alone_one e iv : alone e iv =
  (_ <- check (length e =? length b) AssertionError ;;
   '(z, ll) <- fst (chain o e b W None iv (fresh K)) ;; m <- merge_invalid_indices ll ;; Ok [(z, m)]).
Proof.
  unfold alone, transfer_function. cbn [iv_each length map bind negb Nat.eqb check forallb andb]. rewrite andb_true_r.
  destruct (length e =? length b); cbn [check bind fst]; [|reflexivity]. cbn [repeat length Nat.eqb check bind each_output].
  destruct (chain o e b W None iv (fresh K)) as [[[z ll]|x] h]; cbn [fst bind]; [|reflexivity].
  destruct (merge_invalid_indices ll); reflexivity.
Qed.

Lemma each_alone2 outs : forall ivs h l, length ivs = length outs -> Forall (fun e => length e = length b) outs ->
  fst (each_output o b W outs (repeat None (length outs)) (map Ok ivs) h) = Ok l <->
  Forall2 (fun p r => alone (fst p) (snd p) = Ok [r]) (combine outs ivs) l.
Proof.
  induction outs as [|e outs IH]; intros ivs h l L F.
  - cbn. split; [intros [= <-]; constructor|intros H; inversion H; reflexivity].
  - destruct ivs as [|iv ivs]; [discriminate|]. injection L as L. inversion F as [|? ? F1 F2]; subst.
    cbn [map repeat length each_output combine].
    pose proof (chain_history K o ws e b None iv h (fresh K)) as H. pose proof (alone_one e iv) as A. rewrite F1, Nat.eqb_refl in A. cbn [check bind] in A.
    destruct (chain o e b W None iv h) as [r s], (chain o e b W None iv (fresh K)) as [r' s']. cbn [fst] in *. subst r'.
    destruct r as [[z ll]|x]; cbn [bind] in *.
    2: { split; [discriminate|]. intros G. inversion G as [|? ? ? ? G1 G2]; subst. cbn [fst snd] in G1. congruence. }
    destruct (merge_invalid_indices ll) as [m|x]; cbn [bind] in *.
    2: { split; [discriminate|]. intros G. inversion G as [|? ? ? ? G1 G2]; subst. cbn [fst snd] in G1. congruence. }
    pose proof (fun l => IH ivs s l L F2) as G.
    destruct (each_output o b W outs (repeat None (length outs)) (map Ok ivs) s) as [rs s2]. cbn [fst] in *.
    destruct rs as [rs|x]; cbn [bind].
    + split.
      * intros [= <-]. constructor; [exact A|]. apply G. reflexivity.
      * intros H. inversion H as [|? r ? l' H1 H2]; subst. cbn [fst snd] in H1. rewrite A in H1. injection H1 as <-. apply G in H2. injection H2 as <-. reflexivity.
    + split; [discriminate|]. intros H. inversion H as [|? r ? l' H1 H2]; subst. apply G in H2. discriminate.
Qed.

Lemma outputs_each outs ivs h l : outs <> [] -> length ivs = length outs ->
  fst (transfer_function o outs b W None (IvEach ivs) h) = Ok l <->
  Forall2 (fun p r => alone (fst p) (snd p) = Ok [r]) (combine outs ivs) l.
Proof.
  intros Ho L. unfold transfer_function.
  assert (E : iv_each (length outs) (IvEach ivs) = Ok (map Ok ivs)).
  { destruct ivs as [|i ivs]; [destruct outs; [congruence|discriminate]|]. unfold iv_each. cbn [bind]. rewrite map_length, L, Nat.eqb_refl.
    destruct (length outs); [discriminate|]. reflexivity. }
  rewrite E. cbn [bind].
  destruct (forallb (fun e => length e =? length b) outs) eqn:F; cbn [check bind].
  - rewrite repeat_length, Nat.eqb_refl. cbn [check bind]. apply each_alone2; [exact L|].
    apply Forall_forall. intros e He. rewrite forallb_forall in F. apply Nat.eqb_eq, F, He.
  - split; [discriminate|]. intros H. exfalso. enough (F' : forallb (fun e => length e =? length b) outs = true) by congruence.
    clear F E. revert ivs L l H. induction outs as [|e outs' IH]; intros ivs L l H; [reflexivity|]. destruct ivs as [|iv ivs]; [discriminate|].
    inversion H as [|? r ? l' H1 H2]; subst. cbn [fst snd] in H1. rewrite alone_one in H1. cbn [forallb].
    destruct (length e =? length b); [|discriminate]. cbn [andb]. destruct outs' as [|e' outs']; [reflexivity|].
    apply (IH ltac:(discriminate) ivs (f_equal pred L) l' H2).
Qed.
End Outputs.

(** ** Prefilters *)
Section Pre.
Context {k : Kern} (U : UK k).
Definition rejected_by (inputs : list (list (kE k))) (pf : option (@prefilter k)) (m : list Z) (line : list (kE k)) : res (list Z) :=
  match pf with None => Ok m | Some f => r <- f line (u_rows k U inputs) ;; Ok (union1d m r) end.
(** the same windows rejected in advance for [n] outputs *)
Definition spread (n : nat) (m : option (list Z)) : pidx := match m with None => PNone | Some m => PEach (repeat m n) end.
Definition given_of (m : option (list Z)) : list Z := match m with None => [] | Some m => m end.
Lemma prefilter_each outs inputs pf m : outs <> [] ->
  apply_prefilter U outs inputs pf (spread (length outs) m) = mapM (rejected_by inputs pf (given_of m)) outs.
Proof.
  intros Ho. unfold apply_prefilter.
  assert (E : match spread (length outs) m with PNone | PFlat [] | PEach [] => repeat [] (length outs) | PFlat l => repeat l (length outs) | PEach ll => ll end
              = repeat (given_of m) (length outs)).
  { destruct m as [m|]; [|reflexivity]. destruct outs; [congruence|reflexivity]. }
  rewrite E. rewrite repeat_length, Nat.eqb_refl. destruct outs as [|e outs]; [congruence|]. cbn [length Nat.eqb negb check bind].
  clear E Ho. change (repeat (given_of m) (S (length outs))) with (repeat (given_of m) (length (e :: outs))). generalize (e :: outs). clear e outs.
  unfold rejected_by. destruct pf as [f|]; intros outs.
  - induction outs as [|e outs IH]; [reflexivity|]. cbn [length repeat combine mapM fst snd]. rewrite IH. reflexivity.
  - induction outs as [|e outs IH]; [reflexivity|]. cbn [length repeat mapM bind]. rewrite <- IH. reflexivity.
Qed.
End Pre.

(** ** One frequency *)
Section One.
Variables (a : arguments) (ws : list (option (@weight listK))).
Hypothesis Hw : ia_weights a = weightings listW ws.
Variable (rws : list (option (@weight listK))).
Hypothesis Hrw : remote_weights (k := listK) a = weightings listW rws.

Definition first (b : list (list C)) (br : option (list (list C))) : res (option (option (list (list C)) * list (list C) * option (list Z))) :=
  match br with
  | None => Ok (Some (None, b, None))
  | Some br =>
      iv0 <- apply_prefilter listU b br (remote_prefilter (k := listK) a) PNone ;;
      match fst (estimate listU a b br (remote_weights (k := listK) a) iv0 (fresh listW)) with
      | Err x => if ia_silent a then Ok None else Err x
      | Ok l => T <- rows_of (k := listK) ValueError (map fst l) ;; Ok (Some (Some T, l_dot T br, Some (merged (map snd l))))
      end
  end.

Lemma estimate_history e be wl l (h h' : heap listW) : fst (estimate listU a e be (weightings listW wl) l h) = fst (estimate listU a e be (weightings listW wl) l h').
Proof. unfold estimate. destruct (ia_real_pb a); [reflexivity|]. apply transfer_function_history. Qed.

Lemma stage1_first t b br n (h : heap listW) : fst (stage1 listU (with_elec a t) b br n h) =
  (x <- first b br ;; Ok (match x with None => None | Some (T, be, m) => Some (T, be, spread n m) end)).
Proof.
  unfold stage1, first. destruct br as [br|]; [|reflexivity]. cbn [with_elec ia_prefilter].
  change (remote_prefilter (k := listK) (with_elec a t)) with (remote_prefilter (k := listK) a).
  change (remote_weights (k := listK) (with_elec a t)) with (remote_weights (k := listK) a).
  destruct (apply_prefilter listU b br (remote_prefilter (k := listK) a) PNone) as [iv0|x]; [|reflexivity]. cbn [bind].
  change (estimate listU (with_elec a t)) with (estimate listU a).
  rewrite Hrw. pose proof (estimate_history b br rws iv0 h (fresh listW)) as E.
  destruct (estimate listU a b br (weightings listW rws) iv0 h) as [r s], (estimate listU a b br (weightings listW rws) iv0 (fresh listW)) as [r' s']. cbn [fst] in E. subst r'.
  cbn [fst]. destruct r as [l|x]; [|cbn; destruct (ia_silent a); reflexivity]. cbn [fst].
  destruct (rows_of _ _); reflexivity.
Qed.

(** one electric channel: its estimate and its rejected windows *)
Definition row_ok (be : list (list C)) (m : list Z) (e : list C) (r : list C * list Z) : Prop :=
  exists iv, rejected_by listU be (ia_prefilter a) m e = Ok iv /\ alone listW (ia_opts a) (l_rows be) ws e iv = Ok [(Some (fst r), snd r)].
Lemma row_length be m e r : row_ok be m e r -> length e = length (l_rows be).
Proof.
  intros (iv & _ & H). rewrite alone_one in H. apply bind_ok in H as (u & H & _). unfold check in H.
  destruct (_ =? _) eqn:E in H; [|discriminate]. apply Nat.eqb_eq, E.
Qed.
Lemma row_unique be m e r r' : row_ok be m e r -> row_ok be m e r' -> r' = r.
Proof. intros (iv & E & H) (iv' & E' & H'). rewrite E in E'. injection E' as <-. rewrite H in H'. injection H' as H1 H2. destruct r, r'. cbn in *. congruence. Qed.

Lemma rows_each be m e z ms :
  (exists ivs l, mapM (rejected_by listU be (ia_prefilter a) m) e = Ok ivs /\ Forall2 (fun p r => alone listW (ia_opts a) (l_rows be) ws (fst p) (snd p) = Ok [r]) (combine e ivs) l /\ map fst l = map Some z /\ map snd l = ms) <->
  exists rs, Forall2 (row_ok be m) e rs /\ map fst rs = z /\ map snd rs = ms.
Proof.
  split.
  - intros (ivs & l & Hi & Hl & Hz & Hm). apply mapM_Forall2 in Hi. revert l Hl z Hz ms Hm.
    induction Hi as [|e1 iv e ivs H1 H2 IH]; intros l Hl z Hz ms Hm.
    + inversion Hl; subst. destruct z; [|discriminate]. exists []. repeat split. constructor.
    + inversion Hl as [|? r ? l' G1 G2]; subst. destruct z as [|z1 z]; [discriminate|]. injection Hz as Hz1 Hz.
      destruct (IH l' G2 z Hz _ eq_refl) as (rs & R1 & R2 & R3). exists ((z1, snd r) :: rs). cbn [map fst snd]. split; [|split; apply (f_equal (cons _)); first [exact R2|exact R3]].
      constructor; [|exact R1]. exists iv. split; [exact H1|]. cbn [fst snd] in *. rewrite G1. destruct r as [r1 r2]. cbn in Hz1 |- *. rewrite Hz1. reflexivity.
  - intros (rs & Hr & <- & <-). induction Hr as [|e1 r e rs (iv & H1 & H2) Hr (ivs & l & I1 & I2 & I3 & I4)].
    + exists [], []. repeat split; constructor.
    + exists (iv :: ivs), ((Some (fst r), snd r) :: l). cbn [mapM]. rewrite H1. cbn [bind]. rewrite I1. cbn [bind combine map fst snd].
      split; [reflexivity|]. split; [constructor; [exact H2|exact I2]|]. split; apply (f_equal (cons _)); assumption.
Qed.

Section Coeffs.
Variables (X : recordings) (coeffs : list (list C)) (w : windows).
Definition pick (t : string) : res (list (list C)) := idx <- t_get (ss_tags X) t ;; mapM (fun i => nth_res coeffs i) idx.
Definition pick_remote : res (option (list (list C))) :=
  match remote_name (k := listK) a with None => Ok None | Some r => x <- pick r ;; Ok (Some x) end.
Definition times (m : list Z) : list R := if ia_keep a then invalid_times (k := listK) (run_windows (k := listK) X w) m else [].
Definition transfer (b : list (list C)) (T : option (list (list C))) : arr (list (list C)) := match T with Some T => Values T | None => NaNs (length b) 0 end.

Definition after t (e b : list (list C)) (br : option (list (list C))) (h : heap listW) : res result * heap listW :=
  let failed := mkIres listU (NaNs (length e) (length b)) [] (NaNs (length e) (length b)) (NaNs (length b) (match br with Some l => length l | None => 0 end)) in
  let '(s1, h) := stage1 listU (with_elec a t) b br (length e) h in
  match s1 with
  | Err x => (Err x, h)
  | Ok None => (Ok failed, h)
  | Ok (Some (T, be, iv1)) =>
      match apply_prefilter listU e be (ia_prefilter a) iv1 with
      | Err x => (Err x, h)
      | Ok iv2 =>
          let '(r, h) := estimate listU (with_elec a t) e be (ia_weights a) iv2 h in
          match r with
          | Err x => (if ia_silent a then Ok failed else Err x, h)
          | Ok l =>
              let ivid := map snd l in
              (z <- rows_of (k := listK) IndexError (map fst l) ;;
               err <- l_error e be z ivid ;;
               Ok (mkIres listU (Values z) (if ia_keep a then map (invalid_times (k := listK) (run_windows (k := listK) X w)) ivid else map (fun _ => []) ivid)
                     (Values err) (transfer b T)), h)
          end
      end
  end.
Lemma coeffs_values t h x z : fst (impedance_coeffs listU (with_elec a t) X coeffs w h) = Ok x /\ ir_z listU x = Values z <->
  ia_real_pb a = false /\ exists e b br T be m rs, pick t = Ok e /\ pick (ia_mag a) = Ok b /\ pick_remote = Ok br /\ first b br = Ok (Some (T, be, m)) /\
    e <> [] /\ Forall2 (row_ok be (given_of m)) e rs /\ regular be = true /\ z = map fst rs /\
    x = mkIres listU (Values z) (map (fun r => times (snd r)) rs)
          (Values (map (fun p => error_row (length (l_rows be)) be (fst p) (fst (snd p)) (snd (snd p))) (combine e rs))) (transfer b T).
Proof.
  change (impedance_coeffs listU (with_elec a t) X coeffs w h) with
    (match bind (pick t) (fun e => bind (pick (ia_mag a)) (fun b => bind pick_remote (fun br => Ok (e, b, br)))) with
     | Err x => (Err x, h)
     | Ok (e, b, br) => after t e b br h
     end).
  destruct (pick t) as [e|y]; cbn [bind]; [|split; [intros ([=] & _)|intros (_ & ? & ? & ? & ? & ? & ? & ? & [=] & _)]].
  destruct (pick (ia_mag a)) as [b|y]; cbn [bind]; [|split; [intros ([=] & _)|intros (_ & ? & ? & ? & ? & ? & ? & ? & _ & [=] & _)]].
  destruct pick_remote as [br|y]; cbn [bind]; [|split; [intros ([=] & _)|intros (_ & ? & ? & ? & ? & ? & ? & ? & _ & _ & [=] & _)]].
  unfold after. pose proof (stage1_first t b br (length e) h) as E1.
  destruct (stage1 listU (with_elec a t) b br (length e) h) as [s1 h1]. cbn [fst] in E1. subst s1.
  destruct (first b br) as [[((T & be) & m)|]|y] eqn:Ef; cbn [bind fst].
  2: { split; [intros ([= <-] & [=])|]. intros (_ & ? & ? & ? & ? & ? & ? & ? & [= <-] & [= <-] & [= <-] & F & _). congruence. }
  2: { split; [intros ([=] & _)|]. intros (_ & ? & ? & ? & ? & ? & ? & ? & [= <-] & [= <-] & [= <-] & F & _). congruence. }
  cbn [ia_prefilter with_elec ia_weights ia_silent ia_keep].
  destruct e as [|e0 e'].
  { split.
    - cbn [length spread]. destruct m as [m|]; cbn; intros ([=] & _).
    - intros (_ & ? & ? & ? & ? & ? & ? & ? & [= <-] & _ & _ & _ & N & _). congruence. }
  set (e := e0 :: e') in *. assert (Ne : e <> []) by discriminate. clearbody e. clear e0 e'.
  match goal with |- context [apply_prefilter ?u ?e ?be ?p ?iv] =>
    replace (apply_prefilter u e be p iv) with (mapM (rejected_by listU be (ia_prefilter a) (given_of m)) e)
      by (symmetry; exact (prefilter_each listU e be (ia_prefilter a) m Ne)) end.
  destruct (mapM (rejected_by listU be (ia_prefilter a) (given_of m)) e) as [ivs|y] eqn:Ei.
  2: { split; [intros ([=] & _)|]. intros (_ & ? & ? & ? & ? & ? & ? & rs & [= <-] & [= <-] & [= <-] & F & _ & Hr & _).
       rewrite Ef in F. injection F as <- <- <-.
       destruct (proj2 (rows_each be (given_of m) e _ _) (ex_intro _ rs (conj Hr (conj eq_refl eq_refl)))) as (ivs & l & I1 & _). congruence. }
  unfold estimate. cbn [ia_real_pb with_elec ia_opts u_rows listU].
  destruct (ia_real_pb a).
  { split; [destruct (ia_silent a); [intros ([= <-] & [=])|intros ([=] & _)]|intros ([=] & _)]. }
  pose proof (fun l => outputs_each listW (ia_opts a) (l_rows be) ws e ivs h1 l Ne (mapM_length _ _ _ Ei)) as Ho.
  rewrite Hw.
  destruct (transfer_function (ia_opts a) e (l_rows be) (weightings listW ws) None (IvEach ivs) h1) as [r h2]. cbn [fst] in Ho.
  assert (D : forall z ms rs, Forall2 (row_ok be (given_of m)) e rs -> map fst rs = z -> map snd rs = ms -> exists l, r = Ok l /\ map fst l = map Some z /\ map snd l = ms).
  { intros z' ms rs Hr Hz Hm. destruct (proj2 (rows_each be (given_of m) e _ _) (ex_intro _ rs (conj Hr (conj Hz Hm)))) as (ivs' & l & I1 & I2 & I3 & I4).
    rewrite Ei in I1. injection I1 as <-. exists l. split; [apply Ho, I2|]. split; assumption. }
  destruct r as [l|y].
  2: { split; [destruct (ia_silent a); [intros ([= <-] & [=])|intros ([=] & _)]|].
       intros (_ & ? & ? & ? & ? & ? & ? & rs & [= <-] & [= <-] & [= <-] & F & _ & Hr & _). rewrite Ef in F. injection F as <- <- <-.
       destruct (D _ _ rs Hr eq_refl eq_refl) as (l & [=] & _). }
  cbn [fst].
  assert (Hl := proj1 (Ho l) eq_refl).
  assert (Er : forall z, rows_of (k := listK) IndexError (map fst l) = Ok z <-> map fst l = map Some z).
  { intros z'. unfold rows_of. rewrite mapM_Forall2. generalize (map fst l). clear. intros l. revert z'. induction l as [|x l IH]; intros z'.
    - split; [intros H; inversion H; reflexivity|]. destruct z'; [constructor|discriminate].
    - split.
      + intros H. inversion H as [|? y ? l' H1 H2]; subst. destruct x as [x|]; [|discriminate]. injection H1 as ->. apply IH in H2.
        cbn [map]. rewrite H2. reflexivity.
      + destruct z' as [|y z']; [discriminate|]. intros H. injection H as -> H. constructor; [reflexivity|apply IH, H]. }
  assert (Et : forall ms, (if ia_keep a then map (invalid_times (k := listK) (run_windows (k := listK) X w)) ms else map (fun _ => []) ms) = map times ms).
  { intros ms. unfold times. destruct (ia_keep a); reflexivity. }
  assert (Ee : forall rs, Forall2 (row_ok be (given_of m)) e rs ->
    l_error e be (map fst rs) (map snd rs) = if regular be
      then Ok (map (fun p => error_row (length (l_rows be)) be (fst p) (fst (snd p)) (snd (snd p))) (combine e rs)) else Err LinAlgError).
  { intros rs Hr. rewrite (@l_error_each (length (l_rows be)) e be _ _ Ne).
    2: { clear -Hr. induction Hr as [|e1 r e rs H1 H2 IH]; constructor; [exact (row_length _ _ _ _ H1)|exact IH]. }
    destruct (regular be); [|reflexivity]. f_equal. clear. revert rs. induction e as [|e1 e' IH]; intros [|r rs]; try reflexivity. cbn [map combine fst snd]. f_equal. apply IH. }
  split.
  - intros (H & Hz). split; [reflexivity|]. apply bind_ok in H as (z' & Hz' & H). apply Er in Hz'.
    destruct (proj1 (rows_each be (given_of m) e z' (map snd l)) (ex_intro _ ivs (ex_intro _ l (conj Ei (conj Hl (conj Hz' eq_refl)))))) as (rs & Hr & R1 & R2).
    rewrite Et, <- R1, <- R2, (Ee rs Hr) in H.
    destruct (regular be) eqn:Eb; [|discriminate]. cbn [bind] in H. injection H as <-. cbn [ir_z] in Hz. injection Hz as <-.
    exists e, b, br, T, be, m, rs. do 8 (split; [first [reflexivity|assumption]|]). f_equal. apply map_map.
  - intros (_ & e2 & b2 & br2 & T2 & be2 & m2 & rs & [= <-] & [= <-] & [= <-] & F & _ & Hr & Hb & -> & ->). rewrite Ef in F. injection F as <- <- <-.
    destruct (D _ _ rs Hr eq_refl eq_refl) as (l' & [= <-] & L1 & L2). split; [|reflexivity].
    rewrite (proj2 (Er _) L1). cbn [bind]. rewrite Et, L2, (Ee rs Hr), Hb. cbn [bind]. apply (f_equal Ok). f_equal. apply map_map.
Qed.
End Coeffs.
End One.

Lemma with_same a : with_elec a (ia_elec a) = a.
Proof. destruct a. reflexivity. Qed.

Lemma whole_one fo a X f : whole_impedance fo a X [f] = (x <- fst (impedance_one listU (coefficients fo) a X f (fresh listW)) ;; Ok [x]).
Proof.
  unfold whole_impedance, impedance. cbn [impedance_results]. destruct (impedance_one listU (coefficients fo) a X f (fresh listW)) as [[x|e] h]; cbn [fst bind map]; [|reflexivity].
  destruct (arr_shape _ _). cbn. destruct (arr_shape _ _). cbn. destruct (arr_shape _ _). reflexivity.
Qed.

Lemma one_values fo a X f ws rws x z : ia_weights a = weightings listW ws -> remote_weights (k := listK) a = weightings listW rws ->
  whole_impedance fo a X [f] = Ok [x] /\ ir_z listU x = Values z <->
  exists coeffs w, coefficients fo X f = Ok (coeffs, w) /\ fst (impedance_coeffs listU a X coeffs w (fresh listW)) = Ok x /\ ir_z listU x = Values z.
Proof.
  intros Hw Hrw. rewrite whole_one. split.
  - intros (H & Hz). apply bind_ok in H as (x' & H & [= ->]). unfold impedance_one in H.
    destruct (bind _ _) as [((e & b) & r)|y]; [|discriminate]. destruct (coefficients fo X f) as [(coeffs & w)|y].
    + exists coeffs, w. auto.
    + injection H as <-. discriminate.
  - intros (coeffs & w & Hc & H & Hz). split; [|exact Hz].
    assert (G := conj H Hz). rewrite <- (with_same a) in G. apply (coeffs_values a ws Hw rws Hrw) in G as (_ & e & b & br & T & be & m & rs & Pe & Pb & Pr & _).
    unfold pick_remote in Pr. unfold pick in *. apply bind_ok in Pe as (es & Pe & _). apply bind_ok in Pb as (bs & Pb & _).
    unfold impedance_one.
    assert (E : exists q, bind (t_get (ss_tags X) (ia_elec a)) (fun e => bind (t_get (ss_tags X) (ia_mag a)) (fun b =>
      bind (match remote_name (k := listK) a with None => Ok [] | Some r => t_get (ss_tags X) r end) (fun r => Ok (length e, length b, length r)))) = Ok q).
    { rewrite Pe, Pb. cbn [bind]. destruct (remote_name a) as [r|]; [|eexists; reflexivity].
      apply bind_ok in Pr as (x' & Pr & _). apply bind_ok in Pr as (ir & Pr & _). rewrite Pr. eexists. reflexivity. }
    destruct E as (((Ne & Nb) & Nr) & E).
    match goal with |- context [match ?q with Ok _ => _ | Err _ => _ end] => replace q with (Ok (Ne, Nb, Nr)) by (symmetry; exact E) end.
    cbv iota beta. rewrite Hc, H. reflexivity.
Qed.

Lemma weights_of_remote a : weight_objects (ia_weights a) -> match ia_remote_weights a with None => True | Some l => weight_objects l end ->
  exists rws, remote_weights (k := listK) a = weightings listW rws.
Proof.
  intros Hw Hr. unfold remote_weights. destruct (ia_remote_weights a) as [[|w l]|]; [exact Hw| |exact Hw]. exact Hr.
Qed.

Lemma channels_alone fo a X f es ts : weight_objects (ia_weights a) -> match ia_remote_weights a with None => True | Some l => weight_objects l end ->
  t_get (ss_tags X) (ia_elec a) = Ok es -> es <> [] -> Forall2 (fun c t => t_get (ss_tags X) t = Ok [c]) es ts ->
  (forall x z, whole_impedance fo a X [f] = Ok [x] -> ir_z listU x = Values z ->
     exists err, ir_err listU x = Values err /\ length z = length es /\ length err = length es /\ length (ir_ivt listU x) = length es /\
     forall i t, nth_error ts i = Some t -> exists y zi ei mi, nth_error z i = Some zi /\ nth_error err i = Some ei /\ nth_error (ir_ivt listU x) i = Some mi /\
       whole_impedance fo (with_elec a t) X [f] = Ok [y] /\
       ir_z listU y = Values [zi] /\ ir_err listU y = Values [ei] /\ ir_ivt listU y = [mi] /\ ir_T listU y = ir_T listU x) /\
  ((forall t, In t ts -> exists y z, whole_impedance fo (with_elec a t) X [f] = Ok [y] /\ ir_z listU y = Values z) ->
   exists x z, whole_impedance fo a X [f] = Ok [x] /\ ir_z listU x = Values z).
Proof.
  intros HW HR He Hne Ht. destruct (weights_of_remote a HW HR) as (rws & Hrw). destruct HW as (ws & Hw).
  assert (Hw' : forall t, ia_weights (with_elec a t) = weightings listW ws) by (intros t; exact Hw).
  assert (Hrw' : forall t, remote_weights (k := listK) (with_elec a t) = weightings listW rws) by (intros t; exact Hrw).
  split.
  - intros x z Hx Hz. destruct (proj1 (one_values fo a X f ws rws x z Hw Hrw) (conj Hx Hz)) as (coeffs & w & Hc & G).
    rewrite <- (with_same a) in G. apply (coeffs_values a ws Hw rws Hrw) in G as (Rp & e & b & br & T & be & m & rs & Pe & Pb & Pr & Hf & _ & Hr & Hreg & -> & ->).
    unfold pick in Pe. rewrite He in Pe. cbn [bind] in Pe. pose proof (mapM_length _ _ _ Pe) as Le. apply mapM_Forall2 in Pe.
    pose proof (Forall2_len _ _ _ Hr) as Lr.
    eexists. split; [reflexivity|]. rewrite !map_length, combine_length. split; [congruence|]. split; [lia|]. split; [cbn; rewrite map_length; congruence|].
    intros i t Hi. destruct (Forall2_nth_error_r _ _ _ _ _ Ht Hi) as (c & Hci & Htc).
    destruct (Forall2_nth_error _ _ _ _ _ Pe Hci) as (ei & Hei & Hn). destruct (Forall2_nth_error _ _ _ _ _ Hr Hei) as (r & Hri & Hrow).
    destruct (proj2 (one_values fo (with_elec a t) X f ws rws
        (mkIres listU (Values [fst r]) [times a X w (snd r)] (Values [error_row (length (l_rows be)) be ei (fst r) (snd r)]) (transfer b T)) [fst r] (Hw' t) (Hrw' t))) as (Hy & _).
    { exists coeffs, w. split; [exact Hc|]. apply (coeffs_values a ws Hw rws Hrw). split; [exact Rp|].
      exists [ei], b, br, T, be, m, [r]. split; [unfold pick; rewrite Htc; cbn [bind mapM]; rewrite Hn; reflexivity|].
      do 3 (split; [assumption|]). split; [discriminate|]. split; [constructor; [exact Hrow|constructor]|]. do 2 (split; [first [assumption|reflexivity]|]). reflexivity. }
    do 4 eexists. split; [apply map_nth_error, Hri|]. split.
    { erewrite map_nth_error; [reflexivity|]. instantiate (1 := (ei, r)). clear -Hei Hri. revert i Hei rs Hri.
      induction e as [|e1 e IH]; intros [|i] H [|r1 rs] H'; try discriminate; cbn in *; [congruence|]. apply IH; assumption. }
    split; [cbn [ir_ivt]; apply (map_nth_error (fun r => times a X w (snd r))), Hri|]. split; [exact Hy|]. repeat split; reflexivity.
  - intros Hall.
    assert (Hne' : ts <> []) by (destruct Ht; [congruence|discriminate]).
    assert (Hall' : forall t, In t ts -> exists coeffs w x z, coefficients fo X f = Ok (coeffs, w) /\
      fst (impedance_coeffs listU (with_elec a t) X coeffs w (fresh listW)) = Ok x /\ ir_z listU x = Values z).
    { intros t Hin. destruct (Hall t Hin) as (y & z & Hy & Hz).
      destruct (proj1 (one_values fo (with_elec a t) X f ws rws y z (Hw' t) (Hrw' t)) (conj Hy Hz)) as (coeffs & w & H1 & H2). exists coeffs, w, y, z. auto. }
    destruct ts as [|t0 ts0] eqn:Ets; [congruence|]. destruct (Hall' t0 (or_introl eq_refl)) as (coeffs & w & x0 & z0 & Hc & H0).
    apply (coeffs_values a ws Hw rws Hrw) in H0 as (Rp & e0 & b & br & T & be & m & rs0 & _ & Pb & Pr & Hf & _ & _ & Hreg & _).
    assert (R : exists e rs, mapM (fun i => nth_res coeffs i) es = Ok e /\ Forall2 (row_ok a ws be (given_of m)) e rs).
    { rewrite <- Ets in *. clear Ets t0 ts0 Hne Hne' Hall He. induction Ht as [|c t es' ts' Hct Ht IH].
      - exists [], []. split; [reflexivity|constructor].
      - destruct IH as (e & rs & I1 & I2); [intros t' Hin; apply Hall'; right; exact Hin|].
        destruct (Hall' t (or_introl eq_refl)) as (coeffs' & w' & x & z & Hc' & H). rewrite Hc in Hc'. injection Hc' as <- <-.
        apply (coeffs_values a ws Hw rws Hrw) in H as (_ & e1 & b1 & br1 & T1 & be1 & m1 & rs1 & Q1 & Q2 & Q3 & Q4 & _ & Q5 & _).
        rewrite Pb in Q2. injection Q2 as <-. rewrite Pr in Q3. injection Q3 as <-. rewrite Hf in Q4. injection Q4 as <- <- <-.
        unfold pick in Q1. rewrite Hct in Q1. cbn [bind mapM] in Q1. destruct (nth_res coeffs c) as [ec|y] eqn:Ec; [|discriminate]. injection Q1 as <-.
        inversion Q5 as [|? r ? ? Hr1 Hr2]; subst. inversion Hr2; subst. exists (ec :: e), (r :: rs). split; [|constructor; assumption].
        cbn [mapM]. rewrite Ec. cbn [bind]. rewrite I1. reflexivity. }
    destruct R as (e & rs & Re & Rr).
    do 2 eexists. apply (one_values fo a X f ws rws _ _ Hw Hrw). exists coeffs, w. split; [exact Hc|]. rewrite <- (with_same a) at 1.
    apply (coeffs_values a ws Hw rws Hrw). split; [exact Rp|]. exists e, b, br, T, be, m, rs.
    split; [unfold pick; rewrite He; exact Re|]. do 3 (split; [assumption|]).
    split; [intros ->; pose proof (mapM_length _ _ _ Re); destruct es; [congruence|discriminate]|]. split; [exact Rr|]. split; [exact Hreg|]. split; reflexivity.
Qed.
