(** C93-C95: what packing keeps, which runs it leaves apart; merging an inventory. *)
From Coq Require Import QArith Qcanon.
From Verif Require Import Base BaseLemmas SliceLemmas Arith OrdLaws QcLemmas TagsModel SpecTags TagsProofs
  SyncModel SetModel SpecSet SetProofs SpecSelect SpecTime SpecConsec GlobModel InvModel SpecInv GlobProofs PackProofs SpecPack PackAll PackGrid GroupsAll
  Samples PropSelect InvSamples PropInv.
Open Scope nat_scope.

(** C93: whatever every tag of the inventory has in common at some rate is in the result. *)
Theorem C93_common_content :
  forall (V K : Type) (kone : K) (inv : list (@sigset QA V K)) torder order Y f D F,
  (forall X, In X inv -> recording kone X) -> pack kone true torder order inv = Ok Y -> In f order -> (D < F)%Qc -> all_there inv f D F ->
  forall X k p g j v, In X inv -> records X k p g -> g_rate g = f -> spans D F g ->
  nth_error (g_vals g) j = Some v -> (D <= seg_time g j)%Qc -> (seg_time g j <= F)%Qc -> found Y k p f (seg_time g j) v.
Proof.
  intros V K kone inv torder order Y f D F HR H Hf Hlt HA X k p g j v.
  exact (pack_keeps kone inv order Y f D F X k p g j v (recordings_good kone inv HR) H Hf Hlt HA).
Qed.
Print Assumptions C93_common_content.

(** C93, keep_multi_tags=False: the same for the tags asked for, when no other tag lies within their channels. *)
Theorem C93_common_content_single :
  forall (V K : Type) (kone : K) (inv : list (@sigset QA V K)) torder order Y f D F,
  (forall X, In X inv -> recording kone X) -> pack kone false torder order inv = Ok Y -> unaliased torder inv -> In f order -> (D < F)%Qc ->
  (forall k, In k torder -> exists X p g, In X inv /\ records X k p g /\ g_rate g = f /\ spans D F g) ->
  forall X k p g j v, In k torder -> In X inv -> records X k p g -> g_rate g = f -> spans D F g ->
  nth_error (g_vals g) j = Some v -> (D <= seg_time g j)%Qc -> (seg_time g j <= F)%Qc -> found Y k p f (seg_time g j) v.
Proof.
  intros V K kone inv torder order Y f D F HR H U Hf Hlt HA X k p g j v.
  exact (pack_single_keeps kone inv torder order Y f D F X k p g j v (recordings_good kone inv HR) H U Hf Hlt HA).
Qed.
Print Assumptions C93_common_content_single.

(** C94: of runs that start at multiples of their sampling period, none is left that follows the previous one. *)
Theorem C94_no_consecutive_runs :
  forall (V K : Type) (kone : K) (inv : list (@sigset QA V K)) keep torder order Y,
  (forall X, In X inv -> recording kone X) -> (forall X, In X inv -> on_grid X) ->
  (forall X s, In X inv -> In s (ss_signals X) -> (s_rate s <= ZtoQc 10000000)%Qc) -> pack kone keep torder order inv = Ok Y ->
  forall r r', adjacent (ss_signals Y) r r' -> ~ follows r r'.
Proof. intros V K kone inv keep torder order Y HR. exact (pack_apart kone inv keep torder order Y (recordings_good kone inv HR)). Qed.
Print Assumptions C94_no_consecutive_runs.

(** C94: starts off the grid by less than the tolerance can leave consecutive runs. *)
Definition invT : list xset := [one tE 1 3 (q 1) (q 0); one tE 1 3 (q 1) (qd 3000010 1000000); one tE 1 3 (q 1) (qd 5999995 1000000)].
Theorem C94_off_grid_refuted :
  exists (inv : list xset) Y r r', (forall X, In X inv -> recording tt X) /\ pack tt true [] (rates_of inv) inv = Ok Y /\
    adjacent (ss_signals Y) r r' /\ follows r r'.
Proof.
  set (Y := get (pack tt true [] (rates_of invT) invT) x0).
  exists invT, Y, (nth 0 (ss_signals Y) y0), (nth 1 (ss_signals Y) y0). split; [intros X [<-|[<-|[<-|[]]]]; apply one_rec; vm_compute; reflexivity|].
  split; [apply get_ok; vm_compute; reflexivity|]. split.
  - exists [], []. cbv beta iota delta [app]. unfold Y. vm_compute. reflexivity.
  - split; [apply Qc_is_canon; vm_compute; reflexivity|]. exists (Q2Qc (1 # 100000000) + Q2Qc (1 # 100000) * gap (nth 0 (ss_signals Y) y0) (nth 1 (ss_signals Y) y0))%Qc.
    split; [exists (gap (nth 0 (ss_signals Y) y0) (nth 1 (ss_signals Y) y0)); split; [vm_compute; discriminate|]; split; [left; reflexivity|reflexivity]|].
    split; vm_compute; discriminate.
Qed.
Print Assumptions C94_off_grid_refuted.

(** C95: merging an inventory invents nothing. *)
Theorem C95_merge_from_members :
  forall (V K : Type) (kone : K) (inv : list (@sigset QA V K)) Y,
  (forall X, In X inv -> recording kone X) -> join_merge kone inv = Ok Y ->
  (forall k n, tag_size Y k n -> exists X, In X inv /\ tag_size X k n) /\
  forall k p g' j v, records Y k p g' -> nth_error (g_vals g') j = Some v ->
  exists X g i, In X inv /\ records X k p g /\ g_rate g = g_rate g' /\ nth_error (g_vals g) i = Some v /\ seg_time g i = seg_time g' j.
Proof. intros V K kone inv Y HR. exact (join_merge_from kone inv Y (recordings_good kone inv HR)). Qed.
Print Assumptions C95_merge_from_members.

(** C95: and loses no tag with a channel. *)
Theorem C95_merge_tags :
  forall (V K : Type) (kone : K) (inv : list (@sigset QA V K)) Y,
  (forall X, In X inv -> recording kone X) -> join_merge kone inv = Ok Y ->
  forall X k n, In X inv -> tag_size X k (S n) -> tag_size Y k (S n).
Proof. intros V K kone inv Y HR H X k n. exact (join_merge_tags kone inv Y k X n (recordings_good kone inv HR) H). Qed.
Print Assumptions C95_merge_tags.

(** C95: nor what every tag has in common at some rate; the times are kept. *)
Theorem C95_merge_common_content :
  forall (V K : Type) (kone : K) (inv : list (@sigset QA V K)) Y f D F,
  (forall X, In X inv -> recording kone X) -> join_merge kone inv = Ok Y -> (D < F)%Qc -> all_there inv f D F ->
  forall X k p g j v, In X inv -> records X k p g -> g_rate g = f -> spans D F g ->
  nth_error (g_vals g) j = Some v -> (D <= seg_time g j)%Qc -> (seg_time g j <= F)%Qc ->
  exists g' i, records Y k p g' /\ g_rate g' = f /\ nth_error (g_vals g') i = Some v /\ seg_time g' i = seg_time g j.
Proof. intros V K kone inv Y f D F HR H Hlt HA X k p g j v. exact (join_merge_common kone inv Y f D F X k p g j v (recordings_good kone inv HR) H Hlt HA). Qed.
Print Assumptions C95_merge_common_content.

Example C95_example :
  view (join_merge (A := QA) (V := Z) tt (firstn 3 invP)) = Ok ([(3, 1, 7%nat); (13, 1, 5%nat)]%Q, [("E", [0]); ("H", [1])]%string) /\
  (forall X, In X (firstn 3 invP) -> recording tt X).
Proof. split; [vm_compute; reflexivity|]. intros X HX. apply invP_rec. simpl in *. tauto. Qed.

(** E on [0,9], H on [3,12] and on [13,17] with E: what they share on [4,8] is kept *)
Example C93_example :
  all_there invP (q 1) (q 4) (q 8) /\ spans (q 4) (q 8) (mkSeg (A := QA) (q 1) (q 3) (chan_data 0 10) tt) /\
  records (one tH 1 10 (q 1) (q 3)) "H" 0 (mkSeg (A := QA) (q 1) (q 3) (chan_data 0 10) tt) /\ is_ok (pack tt true [] [q 1; q 2] invP) = true /\
  unaliased ["E"; "H"]%string invP.
Proof.
  assert (RE : records (one tE 1 10 (q 1) (q 0)) "E" 0 (mkSeg (A := QA) (q 1) (q 0) (chan_data 0 10) tt)).
  { exists (run 1 10 (q 1) (q 0)). split; [left; reflexivity|]. exists [0], 0. split; [left; reflexivity|]. split; [reflexivity|]. repeat split. }
  assert (RH : records (one tH 1 10 (q 1) (q 3)) "H" 0 (mkSeg (A := QA) (q 1) (q 3) (chan_data 0 10) tt)).
  { exists (run 1 10 (q 1) (q 3)). split; [left; reflexivity|]. exists [0], 0. split; [left; reflexivity|]. split; [reflexivity|]. repeat split. }
  assert (SE : spans (q 4) (q 8) (mkSeg (A := QA) (q 1) (q 0) (chan_data 0 10) tt)) by (split; vm_compute; discriminate).
  assert (SH : spans (q 4) (q 8) (mkSeg (A := QA) (q 1) (q 3) (chan_data 0 10) tt)) by (split; vm_compute; discriminate).
  split; [|split; [exact SH|split; [exact RH|split; [vm_compute; reflexivity|]]]].
  - intros X0 k n HX (l & Hl & _). assert (k = "E" \/ k = "H")%string as [->| ->].
    { destruct HX as [<-|[<-|[<-|[<-|[]]]]]; vm_compute in Hl; repeat destruct Hl as [Hl|Hl]; try injection Hl as <- <-; auto; destruct Hl. }
    + eexists _, 0, _. split; [|split; [exact RE|split; [reflexivity|exact SE]]]. left; reflexivity.
    + eexists _, 0, _. split; [|split; [exact RH|split; [reflexivity|exact SH]]]. right; left; reflexivity.
  - split.
    + intros X k HX Hl. destruct HX as [<-|[<-|[<-|[<-|[]]]]]; vm_compute in Hl; repeat destruct Hl as [Hl|Hl]; try discriminate; destruct Hl.
    + intros X k l t lt HX Ht H1 H2 Hi.
      destruct HX as [<-|[<-|[<-|[<-|[]]]]]; vm_compute in H1, H2; repeat destruct H1 as [H1|H1]; repeat destruct H2 as [H2|H2];
        try (injection H1 as <- <-); try (injection H2 as <- <-); try reflexivity; try destruct H1; try destruct H2;
        specialize (Hi _ (or_introl eq_refl)); repeat destruct Hi as [Hi|Hi]; try discriminate; destruct Hi.
Qed.

Example C94_example :
  (forall X, In X invP -> on_grid X) /\ (forall X s, In X invP -> In s (ss_signals X) -> (s_rate s <= ZtoQc 10000000)%Qc) /\
  view (pack tt true [] [q 1; q 2] [one tE 1 10 (q 1) (q 0); one tE 1 5 (q 1) (q 10); one tE 1 5 (q 1) (q 17)]) =
    Ok ([(0, 1, 15%nat); (17, 1, 5%nat)]%Q, [("E", [0])]%string).
Proof.
  split; [|split].
  - intros X [<-|[<-|[<-|[<-|[]]]]] s [<-|[]]; [exists 0%Z|exists 3%Z|exists 13%Z|exists 80%Z]; apply Qc_is_canon; vm_compute; reflexivity.
  - intros X s [<-|[<-|[<-|[<-|[]]]]] [<-|[]]; vm_compute; discriminate.
  - vm_compute. reflexivity.
Qed.

(** C87: what all the tags of a group have in common at some rate is in its signal set,
    under its tag and, in the order of the tags, under the new one. *)
Theorem C87_common_content :
  forall (V K : Type) (kone : K) (rorder : list (@sigset QA V K) -> list (num QA)) (inv : list (@sigset QA V K)) groups out,
  (forall X, In X inv -> recording kone X) -> (forall l X s, In X l -> In s (ss_signals X) -> In (s_rate s) (rorder l)) ->
  extract_groups kone rorder inv groups = Ok out -> Forall2 (fun gr Y => forall f D F, (D < F)%Qc ->
  (forall X0 k, In X0 inv -> carried (snd gr) X0 k -> exists X p g, In X inv /\ carried (snd gr) X k /\ records X k p g /\ g_rate g = f /\ spans D F g) ->
  exists sizes, Forall2 (fun t n => exists X, In X inv /\ tag_size X t n) (snd gr) sizes /\ tag_size Y (fst gr) (list_sum sizes) /\
  forall X k p g j v, In X inv -> carried (snd gr) X k -> records X k p g -> g_rate g = f -> spans D F g ->
    nth_error (g_vals g) j = Some v -> (D <= seg_time g j)%Qc -> (seg_time g j <= F)%Qc ->
    (k <> fst gr -> found Y k p f (seg_time g j) v) /\
    (forall P, nth_error (places (snd gr) sizes) P = Some (k, p) -> found Y (fst gr) P f (seg_time g j) v)) groups out.
Proof. intros V K kone rorder inv groups out HR. exact (groups_keep kone rorder inv groups out (recordings_good kone inv HR)). Qed.
Print Assumptions C87_common_content.

(** the group of H and E of [invP] on [4,8] *)
Example C87_common_example :
  (match extract_groups tt rates_of invP [("G", ["H"; "E"])]%string with Ok l => Some (map tagl l) | Err _ => None end) = Some [[("E", [0]); ("H", [1]); ("G", [1; 0])]]%string /\
  (forall X0 k, In X0 invP -> carried ["H"; "E"]%string X0 k ->
     exists X p g, In X invP /\ carried ["H"; "E"]%string X k /\ records X k p g /\ g_rate g = q 1 /\ spans (q 4) (q 8) g) /\
  nth_error (places ["H"; "E"]%string [1; 1]) 1 = Some ("E"%string, 0).
Proof.
  assert (RE : records (one tE 1 10 (q 1) (q 0)) "E" 0 (mkSeg (A := QA) (q 1) (q 0) (chan_data 0 10) tt)).
  { exists (run 1 10 (q 1) (q 0)). split; [left; reflexivity|]. exists [0], 0. split; [left; reflexivity|]. split; [reflexivity|]. repeat split. }
  assert (RH : records (one tH 1 10 (q 1) (q 3)) "H" 0 (mkSeg (A := QA) (q 1) (q 3) (chan_data 0 10) tt)).
  { exists (run 1 10 (q 1) (q 3)). split; [left; reflexivity|]. exists [0], 0. split; [left; reflexivity|]. split; [reflexivity|]. repeat split. }
  assert (C : forall X k, In (k, [0]) (t_dict (ss_tags X)) -> In k ["H"; "E"]%string -> carried (V := Z) (K := unit) ["H"; "E"]%string X k).
  { intros X k Hk Hin. exists [0]. split; [exact Hk|]. intros i Hi. exists k, [0]. split; [|split; [exact Hk|exact Hi]]. exists k. split; [exact Hin|].
    apply fnmatch_spec. destruct Hin as [<-|[<-|[]]]; reflexivity. }
  split; [vm_compute; reflexivity|]. split; [|reflexivity].
  intros X0 k HX (l & Hl & _). assert (k = "E" \/ k = "H")%string as [->| ->].
  { destruct HX as [<-|[<-|[<-|[<-|[]]]]]; vm_compute in Hl; repeat destruct Hl as [Hl|Hl]; try injection Hl as <- <-; auto; destruct Hl. }
  - eexists _, 0, _. split; [left; reflexivity|]. split; [apply C; vm_compute; auto|]. split; [exact RE|]. split; [reflexivity|]. split; vm_compute; discriminate.
  - eexists _, 0, _. split; [right; left; reflexivity|]. split; [apply C; vm_compute; auto|]. split; [exact RH|]. split; [reflexivity|]. split; vm_compute; discriminate.
Qed.
