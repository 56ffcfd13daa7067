(** The values of a prefilter and the times of the windows. *)
From Verif Require Import Base BaseLemmas Arith TagsModel SyncModel SetModel SpecSet SetProofs TrackProofs FourierModel MestModel UtilsModel SpecUtils UtilsProofs UtilsRun MassModel.

Section Values.
Context {k : Kern} (U : UK k) {V K R : Type}.
Variable fourier : @sigset (kA k) V K -> num (kA k) -> res (list (list (kE k)) * windows).
Variable pvalue : list (kE k) -> list (kB k) -> res R.

Lemma values_spec X l_freq remote elec mag vals tms :
  prefilter_values U fourier pvalue X l_freq remote elec mag = Ok (vals, tms) ->
  Forall2 (fun f vs => exists coeffs w es bs inputs,
    fourier X f = Ok (coeffs, w) /\ t_get (ss_tags X) elec = Ok es /\ t_get (ss_tags X) mag = Ok bs /\ columns coeffs bs inputs /\
    Forall2 (fun c v => exists line, nth_error coeffs c = Some line /\ pvalue line (u_rows k U inputs) = Ok v) es vs) l_freq vals /\
  Forall2 (fun f ts => exists coeffs w, fourier X f = Ok (coeffs, w) /\ ts = all_times X w) l_freq tms.
Proof.
  unfold prefilter_values. intros H. apply bind_ok in H as (l & H & [= <- <-]). apply mapM_Forall2 in H.
  induction H as [|f x l_freq l H F [IH1 IH2]]; [split; constructor|].
  apply bind_ok in H as ([coeffs w] & Hf & H). apply bind_ok in H as (e & He & H). apply bind_ok in H as (b & Hb & H).
  apply bind_ok in H as (vs & Hv & H). injection H as <-.
  apply bind_ok in He as (es & Hes & He). apply bind_ok in Hb as (bs & Hbs & Hb).
  apply mapM_Forall2 in He. apply mapM_Forall2 in Hb. apply mapM_Forall2 in Hv.
  split; simpl; (constructor; [|assumption]).
  - exists coeffs, w, es, bs, b. split; [exact Hf|]. split; [exact Hes|]. split; [exact Hbs|]. split.
    + eapply Forall2_impl; [|exact Hb]. intros i x. apply nth_res_ok.
    + clear - He Hv. revert vs Hv. induction He as [|c line es e Hc He IH]; intros vs Hv; inversion Hv; subst; constructor; [|auto].
      exists line. split; [apply nth_res_ok, Hc|assumption].
  - exists coeffs, w. auto.
Qed.

Lemma nth_concat_sum {T} (ls : list (list T)) i t : nth_error (concat ls) i = Some t <->
  exists r j l, nth_error ls r = Some l /\ nth_error l j = Some t /\ i = list_sum (firstn r (map (@length T) ls)) + j.
Proof.
  revert i. induction ls as [|l0 ls IH]; intros i; simpl.
  - split; [destruct i; discriminate|]. intros (r & j & l & H & _). destruct r; discriminate.
  - destruct (Nat.lt_ge_cases i (length l0)) as [Hi|Hi].
    + rewrite nth_error_app1 by exact Hi. split.
      * intros H. exists 0, i, l0. auto.
      * intros ([|r] & j & l & H1 & H2 & ->); simpl in *; [injection H1 as <-; exact H2|lia].
    + rewrite nth_error_app2 by exact Hi. rewrite IH. split.
      * intros (r & j & l & H1 & H2 & H3). exists (S r), j, l. split; [exact H1|]. split; [exact H2|]. simpl. lia.
      * intros ([|r] & j & l & H1 & H2 & H3); simpl in *.
        -- injection H1 as <-. assert (j < length l0) by (apply nth_error_Some; congruence). lia.
        -- exists r, j, l. split; [exact H1|]. split; [exact H2|]. lia.
Qed.

Lemma run_windows_some (X : @sigset (kA k) V K) Nws Ls shs r s n L sh :
  nth_error (ss_signals X) r = Some s -> nth_error Nws r = Some n -> nth_error Ls r = Some L -> nth_error shs r = Some sh ->
  nth_error (run_windows X (Nws, Ls, shs)) r = Some ((s_rate s, s_start s), (n, L, sh)).
Proof.
  unfold run_windows. generalize (ss_signals X). intros l. revert Nws Ls shs r.
  induction l as [|s0 l IH]; intros Nws Ls shs r; [destruct r; discriminate|].
  destruct r as [|r], Nws as [|n0 Nws], Ls as [|L0 Ls], shs as [|sh0 shs]; try discriminate; simpl.
  - intros [= ->] [= ->] [= ->] [= ->]. reflexivity.
  - apply IH.
Qed.

Lemma all_times_spec (X : @sigset (kA k) V K) Nws Ls shs i t : length Nws = length (ss_signals X) -> length Ls = length (ss_signals X) -> length shs = length (ss_signals X) ->
  (nth_error (all_times X (Nws, Ls, shs)) i = Some t <->
   exists run j s L sh, in_run Nws (Z.of_nat i) run j /\ nth_error (ss_signals X) run = Some s /\ nth_error Ls run = Some L /\ nth_error shs run = Some sh /\
     t = centre (s_rate s) (s_start s) L sh j).
Proof.
  intros L1 L2 L3. unfold all_times. rewrite nth_concat_sum.
  replace (map (@length (num (kA k))) _) with Nws.
  2:{ rewrite map_map. transitivity (map (fun p => fst (fst (snd p))) (run_windows X (Nws, Ls, shs))).
      - symmetry. apply run_windows_counts; assumption.
      - apply map_ext. intros [[a b] [[n l] s]]. rewrite map_length, seq_length. reflexivity. }
  split.
  - intros (r & j & l & H1 & H2 & ->). rewrite nth_error_map in H1.
    destruct (nth_error (run_windows X (Nws, Ls, shs)) r) as [[[rate start] [[N L] sh]]|] eqn:E; [|discriminate]. injection H1 as <-.
    apply run_windows_nth in E as (s & Q1 & -> & -> & Q3 & Q4 & Q5).
    rewrite nth_error_map in H2. destruct (nth_error (seq 0 N) j) as [j'|] eqn:Ej; [|discriminate]. injection H2 as <-.
    assert (j < N) by (rewrite <- (seq_length N 0); apply nth_error_Some; congruence).
    rewrite nth_error_seq, (proj2 (Nat.ltb_lt _ _) H) in Ej. injection Ej as <-. exists r, j, s, L, sh. split; [exists N; auto|]. auto.
  - intros (r & j & s & L & sh & (N & Q1 & Hj & Ei) & Q2 & Q3 & Q4 & ->). apply Nat2Z.inj in Ei. subst i.
    exists r, j. eexists. split; [|split; [|reflexivity]].
    + rewrite nth_error_map. replace (nth_error (run_windows X (Nws, Ls, shs)) r) with (Some ((s_rate s, s_start s), (N, L, sh))); [reflexivity|].
      symmetry. apply run_windows_some; assumption.
    + rewrite nth_error_map, nth_error_seq, (proj2 (Nat.ltb_lt _ _) Hj). reflexivity.
Qed.
End Values.
