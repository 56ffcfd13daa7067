(** The data of a combination of remotes. *)
From Coq Require Import QArith Qcanon.
From Verif Require Import Base BaseLemmas SliceLemmas Arith OrdLaws QcLemmas TagsModel SpecTags TagsProofs
  SyncModel SetModel SpecSet SetProofs SpecSelect SpecTime SpecConsec
  GlobModel InvModel SpecInv GlobProofs InvProofs PackProofs TagGroupProofs FourierModel MestModel UtilsModel MassModel SpecUtils.
Open Scope nat_scope.

Section Remote.
Context {V K : Type} (kone : K).
Notation sigset := (@sigset QA V K).

Theorem combined_spec (rorder : list sigset -> list (num QA)) (inv : list sigset) rt data : (forall X, In X inv -> good X) ->
  (forall X n, In X inv -> ~ tag_size X "Bremote" n) ->
  combined_data kone rorder inv rt = Ok data ->
  (ss_signals data = [] \/
   ((forall k X n, In k ("E"%string :: "B"%string :: rt) -> In X inv -> tag_size X k n -> exists m, tag_size data k m) /\
    (rt <> [] -> exists sizes, Forall2 (fun t n => exists X, In X inv /\ tag_size X t n) rt sizes /\ tag_size data "Bremote" (list_sum sizes) /\
      forall p g j v, records data "Bremote" p g -> nth_error (g_vals g) j = Some v ->
        exists t q, nth_error (places rt sizes) p = Some (t, q) /\ taken inv t q (g_rate g) v))) /\
  (forall k p g j v, k <> "Bremote"%string -> records data k p g -> nth_error (g_vals g) j = Some v -> taken inv k p (g_rate g) v).
Proof.
  intros G NB H. unfold combined_data in H. apply bind_ok in H as (rinv & H0 & H). apply bind_ok in H as (rinv' & H1 & H).
  pose proof (filter_good kone inv rinv _ G H0) as Gr.
  assert (NBr : forall X n, In X rinv -> ~ tag_size X "Bremote" n).
  { intros X n HX Hn. destruct (proj1 (proj2 (Gr X HX)) _ _ Hn) as (X' & HX' & Hn'). exact (NB X' n HX' Hn'). }
  assert (EB : forall k X n, In k ["E"; "B"]%string -> In X inv -> tag_size X k n -> exists Y m, In Y rinv /\ tag_size Y k m).
  { intros k X n Hk HX Hn. apply (filter_keeps kone inv rinv _ k X n G H0 HX Hn). exists k. split; [exact Hk|]. apply fnmatch_spec. destruct Hk as [<-|[<-|[]]]; reflexivity. }
  assert (TK : forall X, In X rinv -> forall k p g j v, records X k p g -> nth_error (g_vals g) j = Some v -> taken inv k p (g_rate g) v).
  { intros X HX k p g j v Hg Hv. destruct (proj2 (proj2 (Gr X HX)) k p (g_rate g) (seg_time g j) v) as (X' & HX' & g1 & a1 & K1 & K2 & K3 & K4); [exists g, j; auto|].
    exists X', g1, a1. auto. }
  destruct rt as [|t0 rt].
  { injection H1 as <-. pose proof (pack_tags kone rinv _ data (fun X HX => proj1 (Gr X HX)) H) as PT. split.
    - destruct PT as [[E _]|(_ & TS & _)]; [left; exact E|right]. split; [|congruence].
      intros k X n Hk HX Hn. destruct (EB k X n) as (Y & m & HY & l & Hl & _); [simpl in *; tauto|exact HX|exact Hn|]. apply TS, inv_tags_In. eauto.
    - intros k p g j v _ Hg Hv. destruct (pack_samples kone rinv _ data (fun X HX => proj1 (Gr X HX)) H k p g j v Hg Hv) as (X & g0 & i & n & HX & Q1 & Q2 & Q3 & _).
      rewrite <- Q2. exact (TK X HX k p g0 i v Q1 Q3). }
  set (rt' := t0 :: rt) in *. assert (Hne : rt' <> []) by discriminate. clearbody rt'.
  assert (H1' : exists sig o, extract_group kone o inv ("Bremote"%string, rt') = Ok sig /\ rinv' = rinv ++ [sig]).
  { apply bind_ok in H1 as (l & Hf & H1). injection H1 as <-. unfold extract_groups in Hf. simpl in Hf. apply bind_ok in Hf as (sig & Hs & [= <-]).
    apply bind_ok in Hs as (f & _ & Hs). exists sig, (rorder f). auto. }
  destruct H1' as (sig & o & Hs & ->).
  destruct (group_spec kone inv o "Bremote" rt' sig G) as (GS & RS & (sizes & S1 & S2 & S3) & SO & ST & SK); [exact Hs|].
  assert (GS' := GS ltac:(simpl; intuition discriminate)). clear GS. rename GS' into GS.
  assert (GA : forall X, In X (rinv ++ [sig]) -> good X) by (intros X HX; apply in_app_iff in HX as [HX|[<-|[]]]; [apply (Gr X HX)|exact GS]).
  split.
  - destruct (pack_tags kone _ _ data GA H) as [[E _]|(_ & TS & TO)]; [left; exact E|right]. split.
    + intros k X n Hk HX Hn. assert (HH : exists Y m, In Y (rinv ++ [sig]) /\ tag_size Y k m).
      { assert (Q : In k ["E"; "B"]%string \/ In k rt') by (simpl in *; tauto). destruct Q as [Q|Q].
        - destruct (EB k X n Q HX Hn) as (Y & m & HY & Hm). exists Y, m. rewrite in_app_iff. auto.
        - destruct (SK k Q) as (m & Hm). exists sig, m. rewrite in_app_iff. simpl. auto. }
      destruct HH as (Y & m & HY & l & Hl & _). apply TS, inv_tags_In. eauto.
    + intros _. exists sizes. split; [exact S1|]. split.
      * destruct S2 as (l & Hl & El). destruct (TS "Bremote"%string) as (n & Hn); [apply inv_tags_In; exists sig, l; rewrite in_app_iff; simpl; auto|].
        destruct (TO _ _ Hn) as (X & HX & Hx). apply in_app_iff in HX as [HX|[<-|[]]]; [destruct (NBr X n HX Hx)|].
        destruct Hx as (l' & Hl' & El'). assert (l' = l); [|congruence]. assert (WV : tags_valid (ss_tags sig)) by apply (gd_wf _ GS).
        apply (reads_get _ _ _ WV) in Hl, Hl'. congruence.
      * intros p g j v Hg Hv. destruct (pack_samples kone _ _ data GA H _ p g j v Hg Hv) as (X & g0 & i & n & HX & Q1 & Q2 & Q3 & _).
        apply in_app_iff in HX as [HX|[<-|[]]].
        { exfalso. destruct Q1 as (s & _ & l & c & Hl & _). apply (NBr X (length l) HX). exists l. auto. }
        destruct (S3 p g0 i v Q1 Q3) as (t & q & P1 & P2). exists t, q. split; [exact P1|]. rewrite <- Q2. eapply from_taken, P2.
  - intros k p g j v Hk Hg Hv. destruct (pack_samples kone _ _ data GA H _ p g j v Hg Hv) as (X & g0 & i & n & HX & Q1 & Q2 & Q3 & _).
    rewrite <- Q2. apply in_app_iff in HX as [HX|[<-|[]]]; [exact (TK X HX k p g0 i v Q1 Q3)|]. eapply from_taken, (SO k p g0 i v Hk Q1 Q3).
Qed.
End Remote.
