(** Combinations of remotes (C62, C63, C82). *)
From Coq Require Import QArith Qcanon.
From Verif Require Import Base BaseLemmas Arith OrdLaws QcLemmas TagsModel SpecTags SyncModel SetModel SpecSet SetProofs Samples GlobModel InvModel InvSamples
  FourierModel FourierSet SpecSelect SpecInv InvProofs PackProofs MestModel MestSamples UtilsModel SpecUtils UtilsSamples MassModel SpecMass MassProofs MassTurnProofs RemoteProofs ValuesProofs.
Open Scope nat_scope.

(** ** C62: every combination of remotes, once *)

Theorem C62_combinations : forall (k : Kern) (U : UK k) (V K St : Type) (kone : K)
    (fourier : @sigset (kA k) V K -> num (kA k) -> res (list (list (kE k)) * windows)) rorder inv names l_freq intervals (a : @iargs k St) st res st',
  impedance_mass_proc U kone fourier rorder inv names l_freq intervals a true st = (Ok res, st') ->
  NoDup (map fst res) /\ length res = 2 ^ length names /\
  (forall c, In c (map fst res) <-> exists used, c = subset (length names) used) /\
  (exists r, nth_error res 0 = Some r /\ fst r = subset (length names) (fun _ => false)).
Proof.
  intros k U V K St kone fourier rorder inv names l_freq intervals a st res st' H. apply mass_spec in H as [H _].
  unfold combinations in H. change (map (fun e => [None; Some e]) (seq 0 (length names))) with (pairs_from 0 (length names)) in H.
  split; [rewrite H; apply product_nodup|]. split; [rewrite <- (map_length fst), H; apply product_length|]. split.
  - intros c. rewrite H, product_pairs. unfold subset. split.
    + intros [Hl Hc]. exists (fun e => match nth_error c e with Some (Some _) => true | _ => false end). apply nth_error_ext. intros i.
      rewrite nth_error_map. destruct (nth_error c i) as [x|] eqn:Hi.
      * assert (i < length names) by (rewrite <- Hl; apply nth_error_Some; congruence). rewrite nth_error_seq, (proj2 (Nat.ltb_lt _ _) H0). simpl.
        rewrite Hi. destruct (Hc i x Hi) as [->| ->]; reflexivity.
      * apply nth_error_None in Hi. replace (nth_error (seq 0 (length names)) i) with (@None nat); [reflexivity|].
        symmetry. apply nth_error_None. rewrite seq_length. lia.
    + intros (used & ->). rewrite map_length, seq_length. split; [reflexivity|]. intros e x Hx. rewrite nth_error_map in Hx.
      destruct (nth_error (seq 0 (length names)) e) as [y|] eqn:Hy; [|discriminate]. injection Hx as <-.
      assert (e < length names) by (rewrite <- (seq_length (length names) 0); apply nth_error_Some; congruence).
      rewrite nth_error_seq, (proj2 (Nat.ltb_lt _ _) H0) in Hy. injection Hy as <-. simpl. destruct (used e); auto.
  - destruct (product_first 0 (length names)) as (l & El). rewrite El in H. destruct res as [|r res]; [discriminate|]. injection H as Hr _.
    exists r. split; [reflexivity|]. rewrite Hr. unfold subset. clear. generalize 0. induction (length names) as [|n IH]; intros s; [reflexivity|]. simpl. f_equal. apply IH.
Qed.
Print Assumptions C62_combinations.

(** Each one has one result per interval, in order: the estimate on the data of that
    interval, with the remotes of the combination grouped as 'Bremote'. *)
Theorem C62_results : forall (k : Kern) (U : UK k) (V K St : Type) (kone : K)
    (fourier : @sigset (kA k) V K -> num (kA k) -> res (list (list (kE k)) * windows)) rorder inv names l_freq intervals (a : @iargs k St) combine st res st' used rs,
  impedance_mass_proc U kone fourier rorder inv names l_freq intervals a combine st = (Ok res, st') ->
  In (subset (length names) used, rs) res ->
  exists data b, combined_data kone rorder inv (picked used 0 names) = Ok data /\
    but_remote a b (match picked used 0 names with [] => None | _ => Some "Bremote"%string end) /\
    length rs = length intervals /\
    forall m iv r, nth_error intervals m = Some iv -> nth_error rs m = Some r -> exists X s s',
      extract_t kone data (fst iv) (snd iv) false = Ok X /\ impedance U fourier b X l_freq s = (Ok r, s').
Proof.
  intros k U V K St kone fourier rorder inv names l_freq intervals a combine st res st' used rs H Hin. apply mass_spec in H as [_ H].
  apply In_nth_error in Hin as [n Hn]. destruct (H n _ _ Hn) as (rt & data & H1 & H2 & H3 & H4). rewrite remote_picked in H1. injection H1 as <-.
  exists data. eexists. split; [exact H2|]. split; [apply but_remote_iff; reflexivity|]. split; [exact H3|exact H4].
Qed.
Print Assumptions C62_results.

(** The combinations are counted in binary, the last remote first. They and their
    intervals are done one after the other; the weight objects keep their state from
    one to the next, and the first exception ends the whole. *)
Theorem C62_outcome : forall (k : Kern) (U : UK k) (V K St : Type) (kone : K)
    (fourier : @sigset (kA k) V K -> num (kA k) -> res (list (list (kE k)) * windows)) rorder inv names l_freq intervals (a : @iargs k St) (combine : bool) st r st',
  impedance_mass_proc U kone fourier rorder inv names l_freq intervals a combine st = (r, st') <->
  in_turn (fun used s x s' => exists b,
      but_remote a b (match picked used 0 names with [] => None | _ => Some "Bremote"%string end) /\
      ((exists e, combined_data kone rorder inv (picked used 0 names) = Err e /\ x = Err e /\ s' = s) \/
       (exists data rs, combined_data kone rorder inv (picked used 0 names) = Ok data /\
         in_turn (fun iv s y s' =>
             (exists e, extract_t kone data (fst iv) (snd iv) false = Err e /\ y = Err e /\ s' = s) \/
             (exists X, extract_t kone data (fst iv) (snd iv) false = Ok X /\ impedance U fourier b X l_freq s = (y, s'))) intervals s rs s' /\
         match rs with Ok rs => x = Ok (subset (length names) used, rs) | Err e => x = Err e end)))
    (if combine then map (digits (length names)) (seq 0 (2 ^ length names)) else [fun _ => true]) st r st'.
Proof. exact @mass_turn. Qed.
Print Assumptions C62_outcome.

(** Those data, when they have a run: tags 'E', 'B' and those of the remotes, and
    'Bremote' with every channel of every remote, in the order of the names. Their
    samples were recorded under these tags. *)
Theorem C62_data : forall (V K : Type) (kone : K) (rorder : list (@sigset QA V K) -> list (num QA)) inv rt data,
  (forall X, In X inv -> recording kone X) -> (forall X n, In X inv -> ~ tag_size X "Bremote" n) ->
  combined_data kone rorder inv rt = Ok data ->
  (ss_signals data = [] \/
   ((forall k X n, In k ("E"%string :: "B"%string :: rt) -> In X inv -> tag_size X k n -> exists m, tag_size data k m) /\
    (rt <> [] -> exists sizes, Forall2 (fun t n => exists X, In X inv /\ tag_size X t n) rt sizes /\ tag_size data "Bremote" (list_sum sizes) /\
      forall p g j v, records data "Bremote" p g -> nth_error (g_vals g) j = Some v ->
        exists t q, nth_error (places rt sizes) p = Some (t, q) /\ taken inv t q (g_rate g) v))) /\
  (forall k p g j v, k <> "Bremote"%string -> records data k p g -> nth_error (g_vals g) j = Some v -> taken inv k p (g_rate g) v).
Proof.
  intros V K kone rorder inv rt data H. apply combined_spec. intros X HX. destruct (H X HX) as (R & P & S). split; [exact (reach_wf kone QA_ord X R)|exact P|exact S].
Qed.
Print Assumptions C62_data.

(** Without [combines_remotes], all remotes at once and nothing else. *)
Theorem C62_single : forall (k : Kern) (U : UK k) (V K St : Type) (kone : K)
    (fourier : @sigset (kA k) V K -> num (kA k) -> res (list (list (kE k)) * windows)) rorder inv names l_freq intervals (a : @iargs k St) st res st',
  impedance_mass_proc U kone fourier rorder inv names l_freq intervals a false st = (Ok res, st') ->
  exists rs, res = [(subset (length names) (fun _ => true), rs)].
Proof.
  intros k U V K St kone fourier rorder inv names l_freq intervals a st res st' H. apply mass_spec in H as [H _].
  unfold combinations in H. destruct res as [|[c rs] [|r res]]; try discriminate. injection H as H. exists rs. simpl in H. subst c. reflexivity.
Qed.
Print Assumptions C62_single.

Definition shownm (r : res (list (list (option nat) * list (list (ires u0)))) * list nat) :=
  match fst r with Ok l => inl (map (fun p => (fst p, map (fun x => shown (Ok x, [])) (snd p))) l) | Err x => inr x end.
Example C62_data_example :
  (forall X, In X invU -> recording tt X) /\ (forall X n, In X invU -> ~ tag_size X "Bremote" n) /\
  match combined_data tt rates_of invU ["R1"; "R2"]%string with
  | Ok X => Some (map (fun s : xsync => (this (s_start s), s_size s, map (firstn 2) (s_data s))) (ss_signals X), t_dict (ss_tags X))
  | Err _ => None end =
    Some ([(2%Q, 10, [[9; 11]; [3; 4]; [2; 3]; [7; 10]]%Z)],
          [("E"%string, [0]); ("B"%string, [1]); ("R1"%string, [2]); ("R2"%string, [3]); ("Bremote"%string, [2; 3])]).
Proof.
  split.
  { intros X HX. apply rec_dec; [exact (invU_reach X HX)|]. destruct HX as [<-|[<-|[<-|[]]]]; vm_compute; reflexivity. }
  split.
  { intros X n HX (l & Hl & _). apply (in_map fst) in Hl. destruct HX as [<-|[<-|[<-|[]]]]; vm_compute in Hl; intuition discriminate. }
  vm_compute. reflexivity.
Qed.
Example C62_example :
  (forall X, In X invU -> reach tt X) /\
  shownm (impedance_mass_proc u0 tt fourU rates_of invU ["R1"; "R2"]%string [qd 1 4] [(q 0, q 20); (q 4, q 20)] (argsU [None] None false true None (drop 1)) true []) =
    inl [([None; None], [inl [(Values [3%Z], [[]], NaNs 1 0)]; inl [(Values [3%Z], [[]], NaNs 1 0)]]);
         ([None; Some 1], [inl [(NaNs 1 1, [], NaNs 1 1)]; inl [(NaNs 1 1, [], NaNs 1 1)]]);
         ([Some 0; None], [inl [(Values [4%Z], [[4%Q]], Values [1%Z])]; inl [(Values [5%Z], [[8%Q]], Values [1%Z])]]);
         ([Some 0; Some 1], [inl [(NaNs 1 1, [], NaNs 1 2)]; inl [(NaNs 1 1, [], NaNs 1 2)]])] /\
  shownm (impedance_mass_proc u0 tt fourU rates_of invU ["R1"]%string [qd 1 4] [(q 4, q 20)] (argsU [None] None false true None (drop 1)) false []) =
    inl [([Some 0], [inl [(Values [5%Z], [[8%Q]], Values [1%Z])]])].
Proof. split; [exact invU_reach|]. vm_compute. split; reflexivity. Qed.

(** ** C63: the caller's data keep a 'Bremote' tag *)
Theorem C63_leftover_tag : forall (k : Kern) (O : OrdLaws (kA k)) (U : UK k) (V K : Type) (kone : K)
    (fourier : @sigset (kA k) V K -> num (kA k) -> res (list (list (kE k)) * windows)) (R : Type) (pvalue : list (kE k) -> list (kB k) -> res R)
    X names l_freq intervals vs X',
  reach kone X -> names <> [] -> ~ In "Bremote"%string names ->
  prefilter_values_mass_proc U kone fourier pvalue X names l_freq intervals = (Ok vs, X') ->
  ss_signals X' = ss_signals X /\ (forall t, t <> "Bremote"%string -> t_get (ss_tags X') t = t_get (ss_tags X) t) /\
  exists l, Forall2 (fun t c => t_get (ss_tags X) t = Ok c) names l /\ t_get (ss_tags X') "Bremote" = Ok (concat l).
Proof.
  intros k O U V K kone fourier R pvalue X names l_freq intervals vs X' HX Hn Hb H.
  destruct (values_leftover U kone fourier pvalue X names l_freq intervals vs X' (reach_wf kone O X HX) Hn Hb H) as (H1 & H2 & l & H3 & H4).
  split; [exact H1|]. split; [exact H2|]. exists l. split; [apply mapM_Forall2, H3|exact H4].
Qed.
Print Assumptions C63_leftover_tag.

(** ** C82: the values do not depend on the remotes *)
Theorem C82_remotes_have_no_effect : forall (k : Kern) (O : OrdLaws (kA k)) (U : UK k) (V K : Type) (kone : K) tone cmul cdot calib cdiv
    (Nper ov : num (kA k)) (wd : window_arg (kE k)) (R : Type) (pvalue : list (kE k) -> list (kB k) -> res R)
    (X : @sigset (kA k) V K) names l_freq intervals vs X',
  reach kone X ->
  prefilter_values_mass_proc U kone (fun X f => set_fourier tone cmul cdot calib cdiv X f Nper ov wd) pvalue X names l_freq intervals = (Ok vs, X') ->
  length vs = 2 ^ length names /\ forall v, In v vs ->
    mapM (fun iv => rdata <- extract_t kone X (fst iv) (snd iv) false ;;
                    prefilter_values U (fun X f => set_fourier tone cmul cdot calib cdiv X f Nper ov wd) pvalue rdata l_freq None "E" "B") intervals = Ok v.
Proof.
  intros k O U V K kone tone cmul cdot calib cdiv Nper ov wd R pvalue X names l_freq intervals vs X' HX H.
  eapply values_same; [|exact (reach_wf kone O X HX)|exact H]. intros Y Z f E. unfold set_fourier, nb_channels, nb_runs. rewrite E. reflexivity.
Qed.
Print Assumptions C82_remotes_have_no_effect.

(** One value per frequency and electric channel: [prefilter.value] of its line of
    coefficients and of those of the magnetic channels; the times are the centres of
    all windows, run after run. *)
Theorem C82_values : forall (k : Kern) (O : OrdLaws (kA k)) (U : UK k) (V K : Type) (kone : K) tone cmul cdot calib cdiv
    (Nper ov : num (kA k)) (wd : window_arg (kE k)) (R : Type) (pvalue : list (kE k) -> list (kB k) -> res R)
    (X : @sigset (kA k) V K) l_freq remote elec mag vals tms,
  reach kone X ->
  prefilter_values U (fun X f => set_fourier tone cmul cdot calib cdiv X f Nper ov wd) pvalue X l_freq remote elec mag = Ok (vals, tms) ->
  Forall2 (fun f vs => exists coeffs w es bs inputs,
    set_fourier tone cmul cdot calib cdiv X f Nper ov wd = Ok (coeffs, w) /\
    t_get (ss_tags X) elec = Ok es /\ t_get (ss_tags X) mag = Ok bs /\ columns coeffs bs inputs /\
    Forall2 (fun c v => exists line, nth_error coeffs c = Some line /\ pvalue line (u_rows k U inputs) = Ok v) es vs) l_freq vals /\
  Forall2 (fun f ts => exists coeffs Nws Ls shs, set_fourier tone cmul cdot calib cdiv X f Nper ov wd = Ok (coeffs, (Nws, Ls, shs)) /\
    forall i t, nth_error ts i = Some t <-> exists run j s L sh,
      in_run Nws (Z.of_nat i) run j /\ nth_error (ss_signals X) run = Some s /\ nth_error Ls run = Some L /\ nth_error shs run = Some sh /\
      t = centre (s_rate s) (s_start s) L sh j) l_freq tms.
Proof.
  intros k O U V K kone tone cmul cdot calib cdiv Nper ov wd R pvalue X l_freq remote elec mag vals tms HX H.
  apply values_spec in H as [H1 H2]. split; [exact H1|]. eapply Forall2_impl; [|exact H2]. intros f ts (coeffs & [[Nws Ls] shs] & Hf & ->).
  exists coeffs, Nws, Ls, shs. split; [exact Hf|]. intros i t.
  pose proof (set_fourier_spec _ _ _ _ _ X f Nper ov wd coeffs Nws Ls shs (reach_wf kone O X HX) Hf) as (_ & N1 & N2 & N3 & _).
  apply all_times_spec; assumption.
Qed.
Print Assumptions C82_values.

Definition shownv (r : res (list (list (list (list Z) * list (list (num QA))))) * xset) :=
  (match fst r with Ok l => Some (map (map (fun p => (fst p, map (map this) (snd p)))) l) | Err _ => None end, t_dict (ss_tags (snd r))).
Example C63_C82_example :
  reach tt setU /\
  shownv (prefilter_values_mass_proc u0 tt fourU (fun line rows => Ok (zsum line + zsum rows)%Z) setU ["R"; "EE"]%string [qd 1 4] [(q 0, q 9); (q 0, q 30)]) =
    (Some (repeat [([[107%Z]], [[2%Q; 4%Q; 6%Q; 8%Q]]); ([[134%Z]], [[2%Q; 4%Q; 6%Q; 8%Q; 22%Q; 24%Q; 26%Q]])] 4),
     [("E"%string, [0]); ("B"%string, [1]); ("R"%string, [2]); ("EE"%string, [0; 2]); ("Bremote"%string, [2; 0; 2])]).
Proof. split; [exact setU_reach|]. vm_compute. reflexivity. Qed.
