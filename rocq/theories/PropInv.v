(** C30-C36: inventories. *)
From Coq Require Import QArith Qcanon.
From Verif Require Import Base BaseLemmas SliceLemmas Arith OrdLaws QcLemmas TagsModel SpecTags TagsProofs
  SyncModel SetModel SpecSet SetProofs SpecSelect SpecTime SpecConsec GlobModel InvModel SpecInv GlobProofs InvProofs PackProofs TagGroupProofs PackOrder
  Samples PropSelect InvSamples.
Open Scope nat_scope.

Lemma recordings_good {V K : Type} (kone : K) (inv : list (@sigset QA V K)) : (forall X, In X inv -> recording kone X) -> forall X, In X inv -> good X.
Proof. intros H X HX. destruct (H X HX) as (R & P & S). split; [exact (reach_wf kone QA_ord X R)|exact P|exact S]. Qed.

(** C30: an inventory holds, in order, what the operations of its history added. *)
Theorem C30_inventory_history :
  forall (A : Arith) (V K : Type) (ops : list (@inv_op A V K)) (inv : list (@sigset A V K)),
  exists sets, Forall2 adds ops sets /\ fold_left inv_do ops inv = inv ++ concat sets.
Proof. intros A V K. exact inv_history. Qed.
Print Assumptions C30_inventory_history.

(** C30: [append] and [extend] raise ValueError exactly on something that is not a signal set. *)
Theorem C30_extend_outcome :
  forall (A : Arith) (V K : Type) (l : list (@member A V K)) (inv : list (@sigset A V K)),
  (snd (inv_extend inv l) = Err ValueError <-> In MOther l) /\ (snd (inv_extend inv l) = Ok tt <-> ~ In MOther l).
Proof. intros A V K. exact inv_extend_outcome. Qed.
Print Assumptions C30_extend_outcome.

Example C30_example :
  adds (OpExtend [MSet setA; MOther; MSet setB]) [setA] /\ adds (OpAppend (@MOther QA Z unit)) [] /\ adds (OpAdd [setB; setC]) [setB; setC] /\
  length (fold_left inv_do [OpExtend [MSet setA; MOther; MSet setB]; OpAppend MOther; OpAdd [setB; setC]] []) = 3.
Proof. repeat split; repeat constructor. Qed.

(** C31: selection of channels by keys. *)
Theorem C31_select_channels :
  forall (A : Arith) (L : OrdLaws A) (V K : Type) (kone : K) (inv : list (@sigset A V K)) keys inv',
  (forall X, In X inv -> reach kone X) -> (forall X, In X inv -> plain (ss_tags X)) -> inv_select_channels kone inv keys = Ok inv' ->
  kept (has_channel (fun k => In k keys)) (reduced (fun k => In k keys)) inv inv'.
Proof. intros A L V K kone inv keys inv' H. apply (inv_select_channels_spec kone). intros X HX. apply (reach_wf kone L), H, HX. Qed.
Print Assumptions C31_select_channels.

(** C31: [filter] keeps the members with a matching tag, reduced to the channels of their matching tags. *)
Theorem C31_filter :
  forall (A : Arith) (L : OrdLaws A) (V K : Type) (kone : K) (inv : list (@sigset A V K)) pats inv',
  (forall X, In X inv -> reach kone X) -> (forall X, In X inv -> plain (ss_tags X)) -> inv_filter kone inv pats = Ok inv' ->
  kept (has_channel (fun k => exists p, In p pats /\ shell_match p k)) (reduced (fun k => exists p, In p pats /\ shell_match p k)) inv inv'.
Proof. intros A L V K kone inv pats inv' H. apply (inv_filter_spec kone). intros X HX. apply (reach_wf kone L), H, HX. Qed.
Print Assumptions C31_filter.

(** C31: both succeed when no tag is named like an attribute they use. *)
Theorem C31_success :
  forall (A : Arith) (L : OrdLaws A) (V K : Type) (kone : K) (inv : list (@sigset A V K)),
  (forall X, In X inv -> reach kone X) -> (forall X, In X inv -> plain (ss_tags X)) -> (forall X l, In X inv -> ~ reads (ss_tags X) "get" l) ->
  (forall keys, exists inv', inv_select_channels kone inv keys = Ok inv') /\ (forall pats, exists inv', inv_filter kone inv pats = Ok inv').
Proof.
  intros A L V K kone inv H Hp Hg. assert (W : forall X, In X inv -> wf_set X) by (intros X HX; apply (reach_wf kone L), H, HX).
  split; [intros keys|intros pats]; apply (inv_select_channels_ok kone); assumption.
Qed.
Print Assumptions C31_success.

(** C31: the matching of names is the one of shell patterns. *)
Theorem C31_patterns : forall name pat, fnmatch name pat = true <-> shell_match pat name.
Proof. exact fnmatch_spec. Qed.
Print Assumptions C31_patterns.

Example C31_example :
  (forall X, In X invP -> reach tt X /\ plain (ss_tags X)) /\
  match inv_filter tt invP ["[!E]*"%string] with Ok l => Ok (map times l, map tagl l) | Err e => Err e end =
    Ok ([[(3, 1, 10%nat)]; [(13, 1, 5%nat)]; [(40, 2, 8%nat)]]%Q, [[("H"%string, [0])]; [("H"%string, [0])]; [("H"%string, [0])]]).
Proof. split; [intros X HX; destruct (invP_rec X HX) as (H1 & H2 & _); auto|]. vm_compute. reflexivity. Qed.

(** C32: member by member, dropping exactly the members left without runs. *)
Theorem C32_extract_t :
  forall (A : Arith) (V K : Type) (kone : K) (inv : list (@sigset A V K)) a b ex inv',
  inv_extract_t kone inv a b ex = Ok inv' <->
  exists l, Forall2 (fun X Y => extract_t kone X a b ex = Ok Y) inv l /\ kept (fun Y => ss_signals Y <> []) eq l inv'.
Proof. intros A V K kone. exact (inv_extract_spec kone). Qed.
Print Assumptions C32_extract_t.
Theorem C32_select_runs :
  forall (A : Arith) (V K : Type) (kone : K) (inv : list (@sigset A V K)) runs inv',
  inv_select_runs kone inv runs = Ok inv' <->
  length runs = length inv /\
  exists l, Forall2 (fun Xr Y => select_runs kone (fst Xr) (snd Xr) = Ok Y) (combine inv runs) l /\ kept (fun Y => ss_signals Y <> []) eq l inv'.
Proof. intros A V K kone. exact (inv_select_runs_spec kone). Qed.
Print Assumptions C32_select_runs.
Example C32_example :
  match inv_extract_t tt invP (q 5) (q 14) false with Ok l => Ok (map times l) | Err e => Err e end =
    Ok [[(5, 1, 5%nat)]; [(5, 1, 8%nat)]; [(13, 1, 2%nat)]]%Q.
Proof. vm_compute. reflexivity. Qed.

(** C33: every tag or nothing, whatever the order of the rates. *)
Theorem C33_every_tag_or_nothing :
  forall (V K : Type) (kone : K) (inv : list (@sigset QA V K)) torder order Y,
  (forall X, In X inv -> recording kone X) -> pack kone true torder order inv = Ok Y ->
  (ss_signals Y = [] /\ t_dict (ss_tags Y) = []) \/
  (ss_signals Y <> [] /\ forall k, (exists n, tag_size Y k n) <-> exists X n, In X inv /\ tag_size X k n).
Proof. intros V K kone inv torder order Y H. exact (pack_every_tag kone inv order Y (recordings_good kone inv H)). Qed.
Print Assumptions C33_every_tag_or_nothing.

(** C33, keep_multi_tags=False: every tag asked for, or nothing. *)
Theorem C33_every_single_tag_or_nothing :
  forall (V K : Type) (kone : K) (inv : list (@sigset QA V K)) torder order Y,
  (forall X, In X inv -> recording kone X) -> pack kone false torder order inv = Ok Y ->
  (ss_signals Y = [] /\ t_dict (ss_tags Y) = []) \/
  (ss_signals Y <> [] /\ (forall k X n, In k torder -> In X inv -> tag_size X k (S n) -> exists n, tag_size Y k n) /\
   forall k n, tag_size Y k n -> exists X, In X inv /\ tag_size X k n).
Proof. intros V K kone inv torder order Y H. exact (pack_single_tags kone inv torder order Y (recordings_good kone inv H)). Qed.
Print Assumptions C33_every_single_tag_or_nothing.

(** the tags asked for are those that a member uses for a single channel *)
Theorem C33_single_tags :
  forall (V K : Type) (kone : K) (inv : list (@sigset QA V K)), (forall X, In X inv -> recording kone X) ->
  NoDup (single_tags inv) /\ forall k, In k (single_tags inv) <-> exists X, In X inv /\ tag_size X k 1.
Proof. intros V K kone inv H. exact (single_tags_spec inv (recordings_good kone inv H)). Qed.
Print Assumptions C33_single_tags.

(** C34: every sample of the result comes from a member, under the same tag,
    with the same rate and value, displaced by merged gaps at most. *)
Theorem C34_no_invented_sample :
  forall (V K : Type) (kone : K) (inv : list (@sigset QA V K)) keep torder order Y,
  (forall X, In X inv -> recording kone X) -> pack kone keep torder order inv = Ok Y ->
  forall k p g' j v, records Y k p g' -> nth_error (g_vals g') j = Some v ->
  exists X g i n, In X inv /\ records X k p g /\ g_rate g = g_rate g' /\ nth_error (g_vals g) i = Some v /\ n <= j /\
    abs_le (seg_time g' j - seg_time g i)%Qc (ZtoQc (Z.of_nat n) * drift (g_rate g'))%Qc.
Proof. intros V K kone inv keep torder order Y H. exact (pack_all_samples kone inv keep torder order Y (recordings_good kone inv H)). Qed.
Print Assumptions C34_no_invented_sample.

(** C35: the order of the set of rates changes neither success nor what is read. *)
Theorem C35_any_order_of_rates :
  forall (V K : Type) (kone : K) (inv : list (@sigset QA V K)) keep torder order order' Y,
  (forall X, In X inv -> recording kone X) -> Permutation order order' ->
  pack kone keep torder order inv = Ok Y -> exists Y', pack kone keep torder order' inv = Ok Y' /\ same_reading Y Y'.
Proof. intros V K kone inv keep torder order order' Y H. exact (pack_any_order kone inv keep torder order order' Y (recordings_good kone inv H)). Qed.
Print Assumptions C35_any_order_of_rates.

Example C33_C34_C35_example :
  (forall X, In X invP -> recording tt X) /\
  view (pack tt true [] [q 1; q 2] invP) = Ok ([(3, 1, 7%nat); (13, 1, 5%nat); (40, 2, 8%nat)]%Q, [("E", [0]); ("H", [1])]%string) /\
  view (pack tt true [] [q 2; q 1] invP) = Ok ([(3, 1, 7%nat); (13, 1, 5%nat); (40, 2, 8%nat)]%Q, [("E", [0]); ("H", [1])]%string) /\
  view (pack tt false ["H"; "E"]%string [q 2; q 1] invP) = Ok ([(3, 1, 7%nat); (13, 1, 5%nat); (40, 2, 8%nat)]%Q, [("E", [0]); ("H", [1])]%string).
Proof. split; [exact invP_rec|]. split; [vm_compute; reflexivity|]. split; vm_compute; reflexivity. Qed.

(** C36: where pack raises. *)
Theorem C36_aliased_single_tags :
  exists inv : list xset, (forall X, In X inv -> recording tt X) /\
  is_ok (pack tt true [] (rates_of inv) inv) = true /\ pack tt false (single_tags inv) (rates_of inv) inv = Err AssertionError.
Proof. exists invF. split; [exact invF_rec|]. split; [vm_compute; reflexivity|]. apply err_err. vm_compute. reflexivity. Qed.
Print Assumptions C36_aliased_single_tags.
Theorem C36_no_tag :
  exists inv : list xset, (forall X, In X inv -> recording tt X) /\ forall torder, pack tt true torder (rates_of inv) inv = Err IndexError.
Proof. exists invN. split; [exact invN_rec|]. intros torder. apply err_err. vm_compute. reflexivity. Qed.
Print Assumptions C36_no_tag.

(** ** C87: groups of tags *)
Theorem C87_groups :
  forall (V K : Type) (kone : K) (rorder : list (@sigset QA V K) -> list (num QA)) (inv : list (@sigset QA V K)) groups out,
  (forall X, In X inv -> recording kone X) -> extract_groups kone rorder inv groups = Ok out ->
  Forall2 (fun g Y => ss_signals Y <> [] /\
    (* the new tag has the channels of the old ones, in this order *)
    (exists sizes, Forall2 (fun t n => exists X, In X inv /\ tag_size X t n) (snd g) sizes /\ tag_size Y (fst g) (list_sum sizes) /\
      forall p g' j v, records Y (fst g) p g' -> nth_error (g_vals g') j = Some v ->
        exists t q, nth_error (places (snd g) sizes) p = Some (t, q) /\ comes_from inv t q g' j v) /\
    (forall k p g' j v, k <> fst g -> records Y k p g' -> nth_error (g_vals g') j = Some v -> comes_from inv k p g' j v)) groups out.
Proof. intros V K kone rorder inv groups out H. apply groups_spec, (recordings_good kone inv H). Qed.
Print Assumptions C87_groups.

(** the channels H and E of [invP] as G *)
Example C87_example :
  (forall X, In X invP -> recording tt X) /\
  match extract_groups tt rates_of invP [("G", ["H"; "E"]); ("D", ["E"])]%string with Ok l => Ok (map times l, map tagl l) | Err e => Err e end =
    Ok ([[(3, 1, 7%nat); (13, 1, 5%nat); (40, 2, 8%nat)]; [(0, 1, 10%nat); (13, 1, 5%nat); (40, 2, 8%nat)]]%Q,
        [[("E", [0]); ("H", [1]); ("G", [1; 0])]; [("E", [0]); ("D", [0])]]%string).
Proof. split; [exact invP_rec|]. vm_compute. reflexivity. Qed.
