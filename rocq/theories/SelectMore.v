(** When select_channels succeeds, and what it raises when nothing is chosen. *)
From Verif Require Import Base BaseLemmas SliceLemmas Arith TagsModel SpecTags TagsProofs
  SyncModel SetModel SpecSet SetProofs SpecSelect TrackProofs SelectProofs.

Section SelectMore.
Context {A : Arith} {V K : Type} (kone : K).
Notation sync := (sync A V K).
Notation sigset := (@sigset A V K).

Lemma select_nothing (X : sigset) : wf_set X -> plain (ss_tags X) -> ss_signals X <> [] ->
  select_indices kone X [] = Err AssertionError.
Proof.
  intros HX Hp Hne. pose proof (ws_tags X HX) as Hv. unfold select_indices.
  rewrite (plain_method _ "items" Hp) by (simpl; auto 10).
  change (sort_nat (dedup Nat.eqb [])) with (@nil nat). simpl bind.
  assert (E : filter (fun kv => subsetb Nat.eqb (snd kv) []) (t_dict (ss_tags X)) = []).
  { destruct (filter _ _) as [|[k l] r] eqn:F; [reflexivity|]. exfalso.
    assert (Hi : In (k, l) (filter (fun kv => subsetb Nat.eqb (snd kv) []) (t_dict (ss_tags X))))
      by (rewrite F; left; reflexivity).
    apply filter_In in Hi as [Hi Hs]. apply (tv_nonempty _ Hv _ _ Hi).
    apply subsetb_incl' in Hs. destruct l as [|i l]; [reflexivity|]. destruct (Hs i). left. reflexivity. }
  rewrite E. destruct (ss_signals X) as [|s l]; [congruence|]. reflexivity.
Qed.

Theorem select_channels_nothing (X : sigset) c : wf_set X -> plain (ss_tags X) -> sel_known X c ->
  ss_signals X <> [] -> (forall i, ~ chosen X c i) -> select_channels kone X c = Err AssertionError.
Proof.
  intros HX Hp Hk Hne Hc. destruct (select_channels_resolve kone X c HX Hp Hk) as (idx & E & Hidx & Hr).
  rewrite E. destruct idx as [|i idx]; [apply select_nothing; assumption|].
  exfalso. apply (Hc i), Hidx. left. reflexivity.
Qed.

Theorem select_channels_iff (X : sigset) c : wf_set X -> plain (ss_tags X) ->
  (exists Y, select_channels kone X c = Ok Y) <-> sel_known X c /\ (ss_signals X = [] \/ exists i, chosen X c i).
Proof.
  intros HX Hp. split.
  - intros [Y H]. pose proof (select_known kone X c Y HX Hp H) as Hk. split; [exact Hk|].
    destruct (select_channels_resolve kone X c HX Hp Hk) as (idx & E & Hidx & Hr).
    destruct idx as [|i idx].
    + left. destruct (ss_signals X) as [|s l] eqn:F; [reflexivity|]. exfalso.
      rewrite E, select_nothing in H; [discriminate H|assumption|assumption|congruence].
    + right. exists i. apply Hidx. left. reflexivity.
  - intros [Hk Hc]. apply select_channels_ok; assumption.
Qed.

Theorem select_zero_step (X : sigset) sl : sl_step sl = Some 0%Z ->
  select_channels kone X (SelSlice sl) = Err ValueError.
Proof. intros E. unfold select_channels, slice_range, slice_indices. rewrite E. reflexivity. Qed.
End SelectMore.
