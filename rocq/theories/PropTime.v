(** C12-C16, C27: time and index windows. *)
From Coq Require Import Reals.
From Flocq Require Import Core IEEE754.BinarySingleNaN.
From Coq Require Import QArith Qcanon.
From Verif Require Import Base BaseLemmas SliceLemmas Arith OrdLaws QcLemmas FloatArith TagsModel SpecTags TagsProofs
  SyncModel SetModel SpecSet SetProofs SpecSelect SpecTime ExtractProofs ExtractSet ExcludeProofs ExcludeMore ExtractSync
  FloatExtract Samples PropSelect.
Open Scope nat_scope.

(** C12: a window on one run. *)
Theorem C12_window_keeps_inside :
  forall (V K : Type) (kone : K) (s : sync QA V K) (a b : Qc),
  reach_sync kone s -> (Q2Qc 0 < s_rate s)%Qc -> 0 < s_size s ->
  (a <= last_time s)%Qc -> (s_start s <= b)%Qc ->
  exists s', sync_extract_t kone s a b false = Ok s' /\ channelwise (restricted (within a b)) s s'.
Proof. intros V K kone s a b Hs. apply (window_inside kone). apply (reach_all kone QA_ord), Hs. Qed.
Print Assumptions C12_window_keeps_inside.

Theorem C12_window_outside_yields_boundary :
  forall (V K : Type) (kone : K) (s : sync QA V K) (a b : Qc),
  reach_sync kone s -> (Q2Qc 0 < s_rate s)%Qc -> 0 < s_size s -> (a <= b)%Qc ->
  ((b < s_start s)%Qc ->
     exists s', sync_extract_t kone s a b false = Ok s' /\ channelwise (piece 0 1) s s') /\
  ((last_time s < a)%Qc ->
     exists s', sync_extract_t kone s a b false = Ok s' /\ channelwise (piece (s_size s - 1) 1) s s').
Proof.
  intros V K kone s a b Hs Hr Hn Hab. apply (proj1 (reach_all kone QA_ord)) in Hs. split; intros H.
  - apply (window_before kone s a b); assumption.
  - apply (window_after kone s a b); assumption.
Qed.
Print Assumptions C12_window_outside_yields_boundary.

Theorem C12_strict_window :
  forall (V K : Type) (kone : K) (s : sync QA V K) (a b : Qc), (Q2Qc 0 < s_rate s)%Qc ->
  ((s_start s <= a)%Qc -> (a <= last_time s)%Qc -> (s_start s <= b)%Qc -> (b <= last_time s)%Qc ->
     sync_extract_t kone s a b true = sync_extract_t kone s a b false) /\
  ((a < s_start s)%Qc \/ (last_time s < a)%Qc \/ (b < s_start s)%Qc \/ (last_time s < b)%Qc ->
     sync_extract_t kone s a b true = Err AssertionError).
Proof.
  intros V K kone s a b Hr. split.
  - apply (strict_inside kone s a b Hr).
  - apply (strict_outside kone s a b Hr).
Qed.
Print Assumptions C12_strict_window.

(** a run [20,29] at 1 Hz and windows around it *)
Definition runX : xsync := run 2 10 (q 1) (q 20).
Definition viewr (r : res xsync) := match r with Ok s => Ok (this (s_start s), this (s_rate s), s_data s) | Err e => Err e end.
Lemma qcle_dec (x y : Qc) : Qcleb x y = true -> (x <= y)%Qc. Proof. apply Qcleb_le. Qed.
Lemma qclt_dec (x y : Qc) : Qcltb x y = true -> (x < y)%Qc. Proof. apply Qcltb_lt. Qed.
Lemma natlt_dec (x y : nat) : (x <? y)%nat = true -> x < y. Proof. apply Nat.ltb_lt. Qed.
Example C12_example :
  reach_sync tt runX /\ (Q2Qc 0 < s_rate runX)%Qc /\ 0 < s_size runX /\
  (qd 43 2 <= last_time runX)%Qc /\ (s_start runX <= q 24)%Qc /\
  viewr (sync_extract_t tt runX (qd 43 2) (q 24) false) = Ok (22 # 1, 1 # 1, [[102; 103; 104]; [202; 203; 204]]%Z) /\
  (last_time runX < q 40)%Qc /\
  viewr (sync_extract_t tt runX (q 40) (q 50) false) = Ok (29 # 1, 1 # 1, [[109]; [209]]%Z) /\
  viewr (sync_extract_t tt runX (q 10) (q 22) true) = Err AssertionError.
Proof.
  split; [apply run_reach; vm_compute; reflexivity|].
  split; [apply qclt_dec; vm_compute; reflexivity|]. split; [apply natlt_dec; vm_compute; reflexivity|].
  split; [apply qcle_dec; vm_compute; reflexivity|]. split; [apply qcle_dec; vm_compute; reflexivity|].
  split; [vm_compute; reflexivity|]. split; [apply qclt_dec; vm_compute; reflexivity|].
  split; vm_compute; reflexivity.
Qed.

(** C13: a window on a signal set. *)
Theorem C13_window_keeps_inside :
  forall (V K : Type) (kone : K) (X : @sigset QA V K) (a b : Qc),
  reach kone X -> positive_rates X -> plain (ss_tags X) ->
  exists Y, extract_t kone X a b false = Ok Y /\
    (forall k n, tag_size Y k n <-> tag_size X k n) /\
    (forall k p gs, tracks X k p gs -> exists gs', tracks Y k p gs' /\ restriction (within a b) gs gs').
Proof.
  intros V K kone X a b HX Hr Hp. apply (reach_wf kone QA_ord) in HX.
  destruct (extract_in_ok kone X a b HX Hr Hp) as (Y & HY). exists Y. split; [exact HY|].
  destruct (extract_in_inv kone X a b Y HX Hr HY) as (Hc & Ht & _). split.
  - intros k n. unfold tag_size, reads. rewrite Ht. reflexivity.
  - apply (cuts_tracks X Y); assumption.
Qed.
Print Assumptions C13_window_keeps_inside.

Definition posb (X : xset) : bool := forallb (fun s : xsync => Qcltb (Q2Qc 0) (s_rate s)) (ss_signals X).
Lemma positive_dec X : posb X = true -> positive_rates X.
Proof. intros H s Hs. unfold posb in H. rewrite forallb_forall in H. apply Qcltb_lt, (H s Hs). Qed.
Lemma setA_pos : positive_rates setA. Proof. apply positive_dec. vm_compute. reflexivity. Qed.

(** the window [7, 20] leaves three samples of the first run; the single sample
    left of the second run is dropped *)
Example C13_example : reach tt setA /\ positive_rates setA /\ plain (ss_tags setA) /\
  viewd (extract_t tt setA (q 7) (q 20) false) =
  Ok ([(7 # 1, 1 # 1, 3)], tagl setA, [[[107; 108; 109]; [207; 208; 209]]]%Z).
Proof. split; [exact setA_reach|]. split; [exact setA_pos|]. split; [exact setA_plain|]. vm_compute. reflexivity. Qed.

(** C14: nested windows. *)
Theorem C14_nested_windows :
  forall (V K : Type) (kone : K) (X : @sigset QA V K) (a b c d : Qc),
  reach kone X -> positive_rates X -> plain (ss_tags X) ->
  exists Y, extract_t kone X (@pmax QA a c) (@pmin QA b d) false = Ok Y /\
            (Z <- extract_t kone X a b false ;; extract_t kone Z c d false) = Ok Y.
Proof. intros V K kone X a b c d HX. apply (extract_nested kone). apply (reach_wf kone QA_ord), HX. Qed.
Print Assumptions C14_nested_windows.

Example C14_example :
  reach tt setA /\ positive_rates setA /\ plain (ss_tags setA) /\
  viewd (Z <- extract_t tt setA (q 3) (q 25) false ;; extract_t tt Z (q 5) (q 60) false) =
  viewd (extract_t tt setA (q 5) (q 25) false) /\
  view (extract_t tt setA (q 5) (q 25) false) = Ok ([(5 # 1, 1 # 1, 5); (20 # 1, 1 # 1, 6)], tagl setA).
Proof. split; [exact setA_reach|]. split; [exact setA_pos|]. split; [exact setA_plain|]. split; vm_compute; reflexivity. Qed.

(** C15: excluded windows. *)
Theorem C15_exclusion_keeps_outside :
  forall (V K : Type) (kone : K) (X : @sigset QA V K) (start stop : Qc),
  reach kone X -> positive_rates X -> plain (ss_tags X) -> ss_signals X <> [] -> top_tagged (ss_tags X) ->
  (start <= stop)%Qc ->
  exists Y, extract_t kone X start stop true = Ok Y /\ ss_tags Y = ss_tags X /\
    (forall k p gs, tracks X k p gs -> exists gs1 gs2, tracks Y k p (gs1 ++ gs2) /\
       restriction (upto start) gs gs1 /\ restriction (from stop) gs gs2).
Proof.
  intros V K kone X start stop HX Hr Hp Hne Ht Hle. apply (reach_wf kone QA_ord) in HX.
  destruct (exclude_spec kone X start stop HX Hr Hp Hne Ht (ordered_halves X start stop Hr Hle)) as (Y & l1 & l2 & E & Et & Es & C1 & C2).
  exists Y. split; [exact E|]. split; [exact Et|]. apply (restriction_app_tracks X Y start stop l1 l2); assumption.
Qed.
Print Assumptions C15_exclusion_keeps_outside.

Theorem C15_exclusion_of_empty_set_raises :
  forall (V K : Type) (kone : K) (X : @sigset QA V K) (start stop : Qc),
  ss_signals X = [] -> extract_t kone X start stop true = Err ValueError.
Proof. intros V K kone. exact (exclude_empty kone). Qed.
Print Assumptions C15_exclusion_of_empty_set_raises.

Theorem C15_untagged_channel_raises :
  forall (V K : Type) (kone : K) (X : @sigset QA V K) (start stop : Qc),
  reach kone X -> positive_rates X -> plain (ss_tags X) -> ss_signals X <> [] ->
  (forall k l, reads (ss_tags X) k l -> ~ In (t_n (ss_tags X) - 1) l) ->
  (forall s, In s (ss_signals X) -> count (upto start) s <= 1) ->
  (exists s, In s (ss_signals X) /\ 2 <= count (from stop) s) ->
  extract_t kone X start stop true = Err KeyError.
Proof. intros V K kone X start stop HX. apply (exclude_untagged kone). apply (reach_wf kone QA_ord), HX. Qed.
Print Assumptions C15_untagged_channel_raises.

(** C15: ends in the wrong order are accepted as long as no run has two samples in between;
    a sample in between is then kept twice. *)
Theorem C15_crossed :
  forall (V K : Type) (kone : K) (X : @sigset QA V K) (start stop : Qc),
  reach kone X -> positive_rates X -> plain (ss_tags X) -> ss_signals X <> [] -> top_tagged (ss_tags X) ->
  (forall s, In s (ss_signals X) -> count (within stop start) s <= 1) ->
  exists Y, extract_t kone X start stop true = Ok Y /\ ss_tags Y = ss_tags X /\
    (forall k p gs, tracks X k p gs -> exists gs1 gs2, tracks Y k p (gs1 ++ gs2) /\
       restriction (upto start) gs gs1 /\ restriction (from stop) gs gs2).
Proof. intros V K kone X start stop HX. apply (exclude_crossed kone). apply (reach_wf kone QA_ord), HX. Qed.
Print Assumptions C15_crossed.

Theorem C15_crossed_raises :
  forall (V K : Type) (kone : K) (X : @sigset QA V K) (start stop : Qc),
  reach kone X -> positive_rates X -> plain (ss_tags X) ->
  (exists s, In s (ss_signals X) /\ 2 <= count (within stop start) s) ->
  extract_t kone X start stop true = Err AssertionError.
Proof. intros V K kone X start stop HX. apply (exclude_overlap kone). apply (reach_wf kone QA_ord), HX. Qed.
Print Assumptions C15_crossed_raises.

(** two channels, the second one without tag *)
Definition setU : xset := set_of [("E"%string, RInt 0)] [run 2 10 (q 1) (q 0)].
Lemma setU_reach : reach tt setU.
Proof. apply set_reach; [vm_compute; reflexivity|]. intros s [<-|[]]. apply run_reach. vm_compute. reflexivity. Qed.
Lemma nonempty_dec (X : xset) : (0 <? length (ss_signals X))%nat = true -> ss_signals X <> [].
Proof. intros H E. rewrite E in H. discriminate. Qed.
Example C15_example :
  reach tt setA /\ positive_rates setA /\ plain (ss_tags setA) /\ ss_signals setA <> [] /\ top_tagged (ss_tags setA) /\
  viewd (extract_t tt setA (q 3) (q 62) true) =
  Ok ([(0 # 1, 1 # 1, 4); (62 # 1, 1 # 2, 2)], tagl setA,
      [[[100; 101; 102; 103]; [200; 201; 202; 203]]; [[106; 107]; [206; 207]]]%Z).
Proof.
  split; [exact setA_reach|]. split; [exact setA_pos|]. split; [exact setA_plain|].
  split; [apply nonempty_dec; vm_compute; reflexivity|]. split; [|vm_compute; reflexivity].
  right. exists "H"%string, [1]. assert (E : ss_tags setA = mkTags 2 [("E", [0]); ("H", [1]); ("EH", [0; 1])]%string) by (vm_compute; reflexivity).
  unfold reads. rewrite E. simpl. auto.
Qed.
Example C15_example_crossed :
  (forall s, In s (ss_signals setA) -> count (within (Q2Qc (5 # 2)) (Q2Qc (7 # 2))) s <= 1) /\
  viewd (extract_t tt setA (Q2Qc (7 # 2)) (Q2Qc (5 # 2)) true) = viewd (extract_t tt setA (q 3) (q 3) true) /\
  (exists s, In s (ss_signals setA) /\ 2 <= count (within (q 2) (q 3)) s) /\ err (extract_t tt setA (q 3) (q 2) true) = Some AssertionError.
Proof.
  split; [|split; [vm_compute; reflexivity|split; [|vm_compute; reflexivity]]].
  - assert (G : forallb (fun s : xsync => (count (within (Q2Qc (5 # 2)) (Q2Qc (7 # 2))) s <=? 1)) (ss_signals setA) = true) by (vm_compute; reflexivity).
    rewrite forallb_forall in G. intros s Hs. apply Nat.leb_le, (G s Hs).
  - assert (G : existsb (fun s : xsync => (2 <=? count (within (q 2) (q 3)) s)) (ss_signals setA) = true) by (vm_compute; reflexivity).
    apply existsb_exists in G as (s & G1 & G2). exists s. split; [exact G1|]. apply Nat.leb_le, G2.
Qed.
Example C15_example_untagged :
  reach tt setU /\ positive_rates setU /\ plain (ss_tags setU) /\ ss_signals setU <> [] /\
  (forall k l, reads (ss_tags setU) k l -> ~ In (t_n (ss_tags setU) - 1) l) /\
  (forall s, In s (ss_signals setU) -> count (upto (q 0)) s <= 1) /\
  (exists s, In s (ss_signals setU) /\ 2 <= count (from (q 3)) s).
Proof.
  assert (E : ss_tags setU = mkTags 2 [("E"%string, [0])]) by (vm_compute; reflexivity).
  split; [exact setU_reach|]. split; [apply positive_dec; vm_compute; reflexivity|].
  split; [apply plain_dec; vm_compute; reflexivity|]. split; [apply nonempty_dec; vm_compute; reflexivity|].
  split; [|split].
  - intros k l. unfold reads. rewrite E. simpl. intros [G|[]]. injection G as <- <-. simpl. intuition congruence.
  - assert (G : forallb (fun s : xsync => (count (upto (q 0)) s <=? 1)) (ss_signals setU) = true) by (vm_compute; reflexivity).
    rewrite forallb_forall in G. intros s Hs. apply Nat.leb_le, (G s Hs).
  - assert (G : existsb (fun s : xsync => (2 <=? count (from (q 3)) s)) (ss_signals setU) = true) by (vm_compute; reflexivity).
    apply existsb_exists in G as (s & G1 & G2). exists s. split; [exact G1|]. apply Nat.leb_le, G2.
Qed.

(** C16: the full interval. *)
Theorem C16_full_interval_exact :
  forall (V K : Type) (kone : K) (s : sync QA V K),
  reach_sync kone s -> (Q2Qc 0 < s_rate s)%Qc -> 0 < s_size s ->
  exists stop, s_stop s = Ok stop /\ sync_extract_t kone s (s_start s) stop false = Ok s.
Proof.
  intros V K kone s Hs Hr Hn. exists (last_time s). apply (full_window kone); [|assumption|assumption].
  apply (reach_all kone QA_ord), Hs.
Qed.
Print Assumptions C16_full_interval_exact.

Theorem C16_full_interval_binary64 :
  forall (V K : Type) (kone : K) (s : sync FA V K) (m k : Z),
  reach_sync kone s -> (0 < Z.of_nat (s_size s) < 2 ^ 31)%Z ->
  s_start s = f_ofZ m -> (Z.abs m < 2 ^ 32)%Z ->
  is_finite (s_rate s) = true -> B2R (s_rate s) = bpow radix2 k -> (-20 <= k <= 20)%Z ->
  exists stop, s_stop s = Ok stop /\ sync_extract_t kone s (s_start s) stop false = Ok s.
Proof.
  intros V K kone s m k Hs Hn Hst Hm Hf Hr Hk. apply (extract_full_b64 kone s m k); try assumption.
  - apply (reach_all kone FA_ord), Hs.
  - split; [exact Hf|]. rewrite Hr. symmetry. apply Rmult_1_l.
Qed.
Print Assumptions C16_full_interval_binary64.

(** 49 samples per second, two samples from time 0: the last one is lost *)
Definition run49 : sync FA Z unit :=
  get (sync_new (A := FA) tt [[1; 2]%Z] (f_ofZ 49) (f_ofZ 0) None) (mkSync (A := FA) [] [] (f_ofZ 0) (f_ofZ 0) 0).
Lemma run49_ok : is_ok (sync_new (A := FA) tt [[1; 2]%Z] (f_ofZ 49) (f_ofZ 0) None) = true.
Proof. vm_compute. reflexivity. Qed.
Theorem C16_full_interval_binary64_refuted :
  exists (s : sync FA Z unit) stop s', reach_sync tt s /\ s_size s = 2 /\ s_stop s = Ok stop /\
    sync_extract_t tt s (s_start s) stop false = Ok s' /\ s_size s' = 1.
Proof.
  assert (H : (stop <- s_stop run49 ;; s' <- sync_extract_t tt run49 (s_start run49) stop false ;; Ok (s_size s')) = Ok 1)
    by (vm_compute; reflexivity).
  apply bind_ok in H as (stop & H1 & H). apply bind_ok in H as (s' & H2 & H). injection H as H.
  exists run49, stop, s'. split; [eapply rs_new; apply get_ok, run49_ok|]. auto.
Qed.
Print Assumptions C16_full_interval_binary64_refuted.

Definition run512 : sync FA Z unit :=
  get (sync_new (A := FA) tt [[1; 2; 3]%Z] (f_ofZ 512) (f_ofZ 1000) None) (mkSync (A := FA) [] [] (f_ofZ 0) (f_ofZ 0) 0).
Lemma run512_ok : is_ok (sync_new (A := FA) tt [[1; 2; 3]%Z] (f_ofZ 512) (f_ofZ 1000) None) = true.
Proof. vm_compute. reflexivity. Qed.
Example C16_example : reach_sync tt run512 /\ (0 < Z.of_nat (s_size run512) < 2 ^ 31)%Z /\ s_start run512 = f_ofZ 1000 /\
  is_finite (s_rate run512) = true /\ B2R (s_rate run512) = bpow radix2 9.
Proof.
  split; [eapply rs_new; apply get_ok, run512_ok|]. split; [vm_compute; split; reflexivity|].
  split; [reflexivity|]. split; [vm_compute; reflexivity|].
  change (s_rate run512) with (f_ofZ 512). rewrite (proj2 (val_ofZ 512 eq_refl)). simpl. apply Rmult_1_r.
Qed.

(** C27: index windows. *)
Theorem C27_index_window :
  forall (V K : Type) (kone : K) (s : sync QA V K) i_start i_stop include_last lo hi,
  reach_sync kone s -> (Q2Qc 0 < s_rate s)%Qc -> index_window (s_size s) i_start i_stop include_last lo hi ->
  (valid_window (s_size s) lo hi -> forall strict,
     exists s', extract_i kone s i_start i_stop strict include_last = Ok s' /\
       channelwise (piece (Z.to_nat lo) (Z.to_nat (hi - lo))) s s') /\
  (~ valid_window (s_size s) lo hi ->
     extract_i kone s i_start i_stop true include_last = Err AssertionError).
Proof.
  intros V K kone s i_start i_stop last lo hi Hs Hr Hw. apply (proj1 (reach_all kone QA_ord)) in Hs. split.
  - apply (index_valid kone s i_start i_stop last lo hi Hs Hr Hw).
  - apply (index_invalid kone s i_start i_stop last lo hi Hw).
Qed.
Print Assumptions C27_index_window.

Example C27_example : reach_sync tt runX /\ (Q2Qc 0 < s_rate runX)%Qc /\
  index_window (s_size runX) (Some 2%Z) (Some 4%Z) true 2 5 /\ valid_window (s_size runX) 2 5 /\
  viewr (extract_i tt runX (Some 2%Z) (Some 4%Z) true true) = Ok (22 # 1, 1 # 1, [[102; 103; 104]; [202; 203; 204]]%Z) /\
  index_window (s_size runX) (Some (-1)%Z) None false (-1) 10 /\ ~ valid_window (s_size runX) (-1) 10.
Proof.
  assert (E : s_size runX = 10) by (vm_compute; reflexivity).
  split; [apply run_reach; vm_compute; reflexivity|]. split; [apply qclt_dec; vm_compute; reflexivity|].
  unfold index_window, valid_window. rewrite E.
  split; [split; reflexivity|]. split; [lia|]. split; [vm_compute; reflexivity|]. split; [split; reflexivity|lia].
Qed.
