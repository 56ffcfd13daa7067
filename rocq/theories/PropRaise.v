(** C36: inventories that pack() does not pack. *)
From Coq Require Import QArith Qcanon.
From Verif Require Import Base BaseLemmas Arith OrdLaws QcLemmas TagsModel SpecTags SyncModel SetModel SpecSet SpecSelect SpecTime SpecConsec
  GlobModel InvModel SpecInv PackProofs SpecPack PackRaise Samples PropSelect InvSamples PropInv.
Open Scope nat_scope.

(** C36: a tag recorded by two members at the same rate and at the same time. *)
Theorem C36_recorded_twice :
  forall (V K : Type) (kone : K) (inv : list (@sigset QA V K)) torder order X X' k p g p' g' t,
  (forall X, In X inv -> recording kone X) -> two_places inv X X' -> records X k p g -> records X' k p' g' ->
  g_rate g = g_rate g' -> In (g_rate g) order -> straddles g t -> straddles g' t ->
  forall Y, pack kone true torder order inv <> Ok Y.
Proof.
  intros V K kone inv torder order X X' k p g p' g' t HR HP Hg Hg' Hr Ho S S' Y H.
  exact (pack_recorded_twice kone inv order Y X X' k p g p' g' t (recordings_good kone inv HR) H HP Hg Hg' Hr Ho S S').
Qed.
Print Assumptions C36_recorded_twice.

(** C36: every tag recorded at two rates at the same time. *)
Theorem C36_two_rates :
  forall (V K : Type) (kone : K) (inv : list (@sigset QA V K)) torder (order : list (num QA)) (f f' t : Qc),
  (forall X, In X inv -> recording kone X) -> In f order -> In f' order -> f <> f' -> fully_recorded inv f t -> fully_recorded inv f' t ->
  forall Y, pack kone true torder order inv <> Ok Y.
Proof.
  intros V K kone inv torder order f f' t HR Hf Hf' Hne A A' Y H.
  exact (pack_two_rates kone inv order Y f f' t (recordings_good kone inv HR) H Hf Hf' Hne A A').
Qed.
Print Assumptions C36_two_rates.

(** C36: the channels of the tag [k] of a member have other tags, all of them declared by the same members; one of those has no tag [k]. *)
Theorem C36_multi_tag :
  forall (V K : Type) (kone : K) (inv : list (@sigset QA V K)) torder (order : list (num QA)) X X' k l t (f : Qc),
  (forall X, In X inv -> recording kone X) -> In f order -> In X inv -> has_rate f X -> reads (ss_tags X) k l -> l <> [] ->
  (forall i, In i l -> exists u lu, same_members inv f u t /\ reads (ss_tags X) u lu /\ In i lu) ->
  In X' inv -> has_rate f X' -> (exists n, tag_size X' t n) -> ~ (exists n, tag_size X' k n) ->
  forall Y, pack kone true torder order inv <> Ok Y.
Proof.
  intros V K kone inv torder order X X' k l t f HR Hf HX Hr Hl Hnil Hc HX' Hr' Ht Hk Y H.
  apply Hk. exact (proj2 (pack_torn kone inv order Y X k l t f (recordings_good kone inv HR) H Hf HX Hr Hl Hnil Hc X' HX' Hr') Ht).
Qed.
Print Assumptions C36_multi_tag.

(** C36, keep_multi_tags=False: the channels of one of the tags asked for are channels of another. *)
Theorem C36_aliased :
  forall (V K : Type) (kone : K) (inv : list (@sigset QA V K)) torder order X t u lt lu,
  (forall X, In X inv -> recording kone X) -> In X inv -> In t torder -> In u torder -> t <> u ->
  reads (ss_tags X) t lt -> reads (ss_tags X) u lu -> lt <> [] -> incl lt lu ->
  (exists s, In s (ss_signals X) /\ In (s_rate s) order) ->
  forall Y, pack kone false torder order inv <> Ok Y.
Proof.
  intros V K kone inv torder order X t u lt lu HR HX Ht Hu Hne Hlt Hlu Hnil Hin (s & Hs & Ho) Y H.
  exact (pack_aliased kone inv torder order Y X t u lt lu s (recordings_good kone inv HR) H HX Ht Hu Hne Hlt Hlu Hnil Hin Hs Ho).
Qed.
Print Assumptions C36_aliased.

(** the four cases, and the error *)
Definition invD : list xset := [one tE 1 10 (q 1) (q 0); one tE 1 10 (q 1) (q 5)].
Example C36_example_twice :
  (forall X, In X invD -> recording tt X) /\ two_places invD (one tE 1 10 (q 1) (q 0)) (one tE 1 10 (q 1) (q 5)) /\
  records (one tE 1 10 (q 1) (q 0)) "E" 0 (mkSeg (A := QA) (q 1) (q 0) (chan_data 0 10) tt) /\
  records (one tE 1 10 (q 1) (q 5)) "E" 0 (mkSeg (A := QA) (q 1) (q 5) (chan_data 0 10) tt) /\
  straddles (mkSeg (A := QA) (q 1) (q 0) (chan_data 0 10) tt) (q 7) /\ straddles (mkSeg (A := QA) (q 1) (q 5) (chan_data 0 10) tt) (q 7) /\
  pack tt true [] [q 1] invD = Err AssertionError.
Proof.
  split; [intros X [<-|[<-|[]]]; apply one_rec; vm_compute; reflexivity|].
  split; [exists 0, 1; split; [reflexivity|]; split; [reflexivity|discriminate]|].
  split; [exists (run 1 10 (q 1) (q 0)); split; [left; reflexivity|]; exists [0], 0; split; [left; reflexivity|]; split; [reflexivity|]; repeat split|].
  split; [exists (run 1 10 (q 1) (q 5)); split; [left; reflexivity|]; exists [0], 0; split; [left; reflexivity|]; split; [reflexivity|]; repeat split|].
  split; [split; vm_compute; reflexivity|]. split; [split; vm_compute; reflexivity|]. apply err_err. vm_compute. reflexivity.
Qed.

Lemma invR_full f : f = q 1 \/ f = q 2 -> fully_recorded invR f (q 3).
Proof.
  assert (A : forall X0 k n, In X0 invR -> tag_size X0 k n -> k = "E"%string \/ k = "H"%string).
  { intros X0 k n HX (l & Hl & _). destruct HX as [<-|[<-|[]]]; vm_compute in Hl; repeat destruct Hl as [Hl|Hl]; try (injection Hl as <- <-); auto; destruct Hl. }
  assert (R : forall m r c, (m = 10 /\ r = q 1) \/ (m = 20 /\ r = q 2) -> c < 2 -> records (one tEH 2 m r (q 0)) (nth c ["E"; "H"]%string ""%string) 0 (mkSeg (A := QA) r (q 0) (chan_data c m) tt)).
  { intros m r c Hm Hc. assert (Hc' : c = 0 \/ c = 1) by lia. exists (run 2 m r (q 0)).
    destruct Hm as [[-> ->]|[-> ->]], Hc' as [->| ->]; (split; [left; reflexivity|]).
    1, 3: exists [0], 0; split; [left; reflexivity|]; split; [reflexivity|]; repeat split.
    1, 2: exists [1], 1; split; [right; left; reflexivity|]; split; [reflexivity|]; repeat split. }
  intros [->| ->].
  - exists (one tEH 2 10 (q 1) (q 0)), "E"%string, 0, (mkSeg (A := QA) (q 1) (q 0) (chan_data 0 10) tt), 0, 9. split; [left; reflexivity|].
    split; [apply (R 10 (q 1) 0); auto; lia|]. split; [reflexivity|]. split; [vm_compute; lia|]. split; [vm_compute; lia|]. split; [vm_compute; reflexivity|]. split; [vm_compute; reflexivity|].
    intros X0 k n HX Hn. exists (one tEH 2 10 (q 1) (q 0)), 0.
    destruct (A X0 k n HX Hn) as [->| ->]; [exists (mkSeg (A := QA) (q 1) (q 0) (chan_data 0 10) tt)|exists (mkSeg (A := QA) (q 1) (q 0) (chan_data 1 10) tt)];
      (split; [left; reflexivity|]); (split; [first [apply (R 10 (q 1) 0); auto; lia|apply (R 10 (q 1) 1); auto; lia]|]); (split; [reflexivity|]); split; vm_compute; discriminate.
  - exists (one tEH 2 20 (q 2) (q 0)), "E"%string, 0, (mkSeg (A := QA) (q 2) (q 0) (chan_data 0 20) tt), 0, 19. split; [right; left; reflexivity|].
    split; [apply (R 20 (q 2) 0); auto; lia|]. split; [reflexivity|]. split; [vm_compute; lia|]. split; [vm_compute; lia|]. split; [vm_compute; reflexivity|]. split; [vm_compute; reflexivity|].
    intros X0 k n HX Hn. exists (one tEH 2 20 (q 2) (q 0)), 0.
    destruct (A X0 k n HX Hn) as [->| ->]; [exists (mkSeg (A := QA) (q 2) (q 0) (chan_data 0 20) tt)|exists (mkSeg (A := QA) (q 2) (q 0) (chan_data 1 20) tt)];
      (split; [right; left; reflexivity|]); (split; [first [apply (R 20 (q 2) 0); auto; lia|apply (R 20 (q 2) 1); auto; lia]|]); (split; [reflexivity|]); split; vm_compute; discriminate.
Qed.
Example C36_example_rates :
  (forall X, In X invR -> recording tt X) /\ fully_recorded invR (q 1) (q 3) /\ fully_recorded invR (q 2) (q 3) /\ q 1 <> q 2 /\
  pack tt true [] (rates_of invR) invR = Err AssertionError.
Proof.
  split; [exact invR_rec|]. split; [apply invR_full; left; reflexivity|]. split; [apply invR_full; right; reflexivity|]. split; [discriminate|]. apply err_err. vm_compute. reflexivity.
Qed.

Example C36_example_multi :
  (forall X, In X invM -> recording tt X) /\ has_rate (q 1) (one tM 2 10 (q 1) (q 0)) /\ has_rate (q 1) (one tEH 2 10 (q 1) (q 20)) /\
  reads (ss_tags (one tM 2 10 (q 1) (q 0))) "M" [0; 1] /\
  (forall i, In i [0; 1] -> exists u lu, same_members invM (q 1) u "E" /\ reads (ss_tags (one tM 2 10 (q 1) (q 0))) u lu /\ In i lu) /\
  tag_size (one tEH 2 10 (q 1) (q 20)) "E" 1 /\ ~ (exists n, tag_size (one tEH 2 10 (q 1) (q 20)) "M" n) /\
  pack tt true [] (rates_of invM) invM = Err AssertionError.
Proof.
  split; [exact invM_rec|]. split; [eexists; split; [left; reflexivity|reflexivity]|]. split; [eexists; split; [left; reflexivity|reflexivity]|].
  split; [right; right; left; reflexivity|]. split.
  { intros i [<-|[<-|[]]].
    - exists "E"%string, [0]. split; [intros X _ _; reflexivity|]. split; [left; reflexivity|left; reflexivity].
    - exists "H"%string, [1]. split; [|split; [right; left; reflexivity|left; reflexivity]].
      intros X [<-|[<-|[]]] _; split; intros _; [exists 1, [0]|exists 1, [1]|exists 1, [0]|exists 1, [1]]; (split; [vm_compute; auto|reflexivity]). }
  split; [exists [0]; split; [left; reflexivity|reflexivity]|]. split; [|apply err_err; vm_compute; reflexivity].
  intros (n & l & Hl & _). vm_compute in Hl. destruct Hl as [Hl|[Hl|[]]]; discriminate.
Qed.

Example C36_example_aliased :
  (forall X, In X invF -> recording tt X) /\ reads (ss_tags (one tEF 1 10 (q 1) (q 0))) "E" [0] /\ reads (ss_tags (one tEF 1 10 (q 1) (q 0))) "F" [0] /\
  single_tags invF = ["E"; "F"]%string /\ pack tt false (single_tags invF) (rates_of invF) invF = Err AssertionError.
Proof.
  split; [exact invF_rec|]. split; [left; reflexivity|]. split; [right; left; reflexivity|]. split; [vm_compute; reflexivity|]. apply err_err. vm_compute. reflexivity.
Qed.
