(** Combined channels of the remote reference, and whole estimates. *)
From Coq Require Import Reals Lra.
From Coquelicot Require Import Complex.
From mathcomp Require Import all_ssreflect all_algebra.
From Verif Require Import WlseModel WlseProofs CField.
From Verif Require Import Base BaseLemmas Arith TagsModel SyncModel SetModel FourierModel MestModel SpecMest SpecMestAll WeightModel RobustModel RobustWeights BiModel ExtLemmas
  SimProofs FullModel SpecFull FullProofs PrefilterModel UtilsModel SpecUtils UtilsProofs WholeModel WholeScale WholeUnits SpecWhole WholeImpedance AloneProofs SpecRemote SpecMixed MixScale MixFourier MixImpedance.
Set Implicit Arguments.
Unset Strict Implicit.
Unset Printing Implicit Defensive.
Import GRing.Theory.
Local Open Scope ring_scope.

Section Remote.
Variables (n : nat) (A M : nat -> nat -> C) (es bs rs : list nat).
Hypotheses (Hrs : rs <> [::]) (HM : invertible (size rs) M) (HA : inputs_mixed n A rs M) (He : kept n A es) (Hb : kept n A bs).
Variables (a : arguments) (X X' : recordings) (r : string).
Hypotheses (Wa : library (ia_weights a)) (Wr : match ia_remote_weights a with None => True | Some l => library l end).
Hypothesis (Pr : combination_free (remote_prefilter a)).
Hypotheses (Ht : ss_tags X' = ss_tags X) (Te : t_get (ss_tags X) (ia_elec a) = Ok es) (Tb : t_get (ss_tags X) (ia_mag a) = Ok bs).
Hypotheses (Hr : remote_name a = Some r) (Tr : t_get (ss_tags X) r = Ok rs).
Notation q := (size rs).
Let one : nat -> C := fun=> RtoC 1.
Let none : nat -> nat -> C := fun _ _ => RtoC 0.
Let UM := invertible_unit HM.

Lemma picked_kept idx cols : kept n A idx -> picked (List.map (mixcol n A) cols) idx = picked cols idx.
Proof.
move=> K; rewrite /picked; apply: List.map_ext_in => ch Hch; rewrite List.map_map; apply: List.map_ext => col.
by have := K ch Hch col; rewrite csum_big.
Qed.
Lemma kept_outputs : outputs_mixed n A bs rs one none.
Proof.
move=> i ch Hi x; rewrite (Hb (List.nth_error_In _ _ Hi) x) sum_of_row big1 => [|j _]; last by rewrite -[none _ _]/(0 : C) mul0r.
by rewrite -[Cplus _ _]/(one i * x ch + _) -[one i]/(1 : C) mul1r addr0.
Qed.
Lemma one_nz i : one i <> RtoC 0.
Proof. by apply/eqP; exact: oner_neq0. Qed.

Lemma dot_mixed cols T : List.Forall (fun row => size row = q) T -> size T = size bs ->
  l_dot (mix_table M rs (chans bs one none) T) (picked (List.map (mixcol n A) cols) rs) = l_dot T (picked cols rs).
Proof.
move=> FT LT; rewrite /l_dot !size_picked !columns_picked // -[size (List.map _ _)]/(List.length _) List.map_length -[List.length cols]/(size cols).
have E row p : In p (chans bs one none) ->
  [seq \sum_(j < q) seq.nth 0 (mix_est q M p.2.1 p.2.2 row) j * entry (picked (List.map (mixcol n A) cols) rs) j t | t <- iota 0 (size cols)]
  = [seq \sum_(j < q) seq.nth 0 row j * entry (picked cols rs) j t | t <- iota 0 (size cols)].
  move=> /List.in_map_iff [[k ch] [<- _]]; apply/eq_in_map => t; rewrite mem_iota add0n => /andP [_ Ht'].
  have [col Hc] := nth_error_some Ht'.
  have Hc' : nth_error (List.map (mixcol n A) cols) t = Some (mixcol n A col) by rewrite List.nth_error_map Hc.
  under eq_bigr => j _ do rewrite (entry_picked Hc') // -/(bf rs _) (mixed_row HA).
  rewrite mix_dot //; apply: eq_bigr => j _; rewrite (entry_picked Hc) // -/(bf rs _) /=.
  by rewrite -[one _]/(1 : C) -[none _ _]/(0 : C) mul1r addr0.
have Lp : size (chans bs one none) = size bs := size_chans bs one none.
rewrite /mix_table.
move: E Lp; rewrite -LT; move: (chans bs one none) => pp E; elim: T pp E {FT LT} => [|row T IH] [|p pp] E //= [L].
by rewrite IH ?E //; [left|move=> row' p' Hp; apply: E; right].
Qed.

Lemma stage1_mixed cols nE (h h' : heap listW) :
  both (fun s s' => match s, s' with
    | None, None => True
    | Some (Some T, be, iv), Some (Some T', be', iv') => be' = be /\ iv' = iv /\ solves (size bs) q M one none T T'
    | _, _ => False end)
   (fst (stage1 listU a (picked cols bs) (Some (picked cols rs)) nE h))
   (fst (stage1 listU a (picked (List.map (mixcol n A) cols) bs) (Some (picked (List.map (mixcol n A) cols) rs)) nE h')).
Proof.
cbn [stage1].
have HP : remote_prefilter a = None \/ combination_free (remote_prefilter a) /\ forall i j, none i j = 0 by right.
rewrite (@prefilter_mixed n A M bs rs one none Hrs HM HA kept_outputs one_nz cols (remote_prefilter a) PNone HP).
case E0: (apply_prefilter _ _ _ _ _) => [iv0|x] //=.
have [Ho Li] := nonempty_prefilter E0; rewrite size_picked in Li.
have Nb : bs <> [::] by move=> E; apply: Ho; rewrite E.
have [wl [-> Wl]] : library (remote_weights a).
  rewrite /remote_weights; case: (ia_remote_weights a) Wr => [[|w l]|] //.
have [] := @estimate_mixed n A M bs rs one none Hrs HM HA kept_outputs one_nz a wl cols iv0 h h' Wl Nb Li.
case: (estimate listU a (picked cols bs) _ _ _ h) => l0 st; case: (estimate _ _ _ _ _ _ h') => l0' st' /= -> Sz.
case: l0 Sz => [l|x] Sz /=; last by case: (ia_silent a).
have [Ll Fl] := Sz _ erefl.
have Lp : size l = size (chans bs one none) by rewrite Ll; symmetry; exact: size_chans.
rewrite rows_of_mix // snd_mix //.
case E: (rows_of ValueError _) => [T|x] //=.
have [LT FT] := rows_sized E Fl; rewrite Ll in LT.
by rewrite dot_mixed //; split=> //; split=> //; exact: table_solves.
Qed.

Lemma coeffs_remote cols w (h h' : heap listW) : @run_windows listK R calibration X' w = @run_windows listK R calibration X w ->
  both (remote_result bs rs M) (fst (impedance_coeffs listU a X (lines n cols) w h)) (fst (impedance_coeffs listU a X' (lines n (List.map (mixcol n A) cols)) w h')).
Proof.
move=> Hw; rewrite /impedance_coeffs Ht Te Tb Hr /= Tr.
have [[x Ex]|Ee] := pick_lines n es; first by rewrite /= !Ex.
have [[x Ex]|Eb] := pick_lines n bs; first by rewrite /= !Ee !Ex.
have [[x Ex]|Er] := pick_lines n rs; first by rewrite /= !Ee !Eb !Ex.
cbn [bind]; rewrite !Ee !Eb !Er; cbn [bind].
have Ls cols' idx : List.length (picked cols' idx) = List.length idx by exact: List.map_length.
have := @stage1_mixed cols (List.length (picked cols es)) h h'.
rewrite (picked_kept cols He) (picked_kept cols Hb) !Ls.
case: (stage1 listU a _ _ _ h) => s st; case: (stage1 listU a _ _ _ h') => s' st'; cbn [fst].
case: s => [[[[[T|] be] iv1]|]|x]; case: s' => [[[[[T'|] be'] iv1']|]|x'] //=.
- move=> [-> [-> HT]]; case E2: (apply_prefilter _ _ _ _ _) => [iv2|x] //=.
  have [wl [-> Wl]] := Wa.
  have := @estimate_history a (picked cols es) be wl iv2 st st'.
  case: (estimate listU a _ _ _ _ st) => l0 st2; case: (estimate listU a _ _ _ _ st') => l0' st2' /= <-.
  case: l0 => [l|x] /=; last by case: (ia_silent a).
  rewrite Hw; case: (rows_of IndexError _) => [z|x] //=; case: (l_error _ _ _ _) => [err|x] //=.
Qed.
End Remote.
