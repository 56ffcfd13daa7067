(** Arguments for robust estimates of the sinusoidal fields of TonesSamples.v. *)
From Coq Require Import Reals Lra Lia String.
From Coquelicot Require Import Complex.
From Verif Require Import Base BaseLemmas Arith TagsModel SyncModel SetModel SpecSet FourierModel MestModel WeightModel RobustModel BiModel FullModel UtilsModel SpecUtils WholeModel SpecWhole SpecRemote
  SpecTones WholeSamples TonesSamples TonesProofs SpecExactFit ExactFitProofs ExactFitTones.
Local Open Scope R_scope.

Definition robust_args (ws : list (option (wfun listK (heap listW)))) (remote : option string) (silent : bool) : arguments :=
  mkIargs (k := listK) (St := heap listW) ws None remote None None "E" "B" (mkOpts listK (1 / 1000 : R) 100%Z (1 / 1000 : R)) false silent true.
Definition mest : list (option (wfun listK (heap listW))) := weightings listW (mest_weights (k := listK) (3 / 2) 0).
Definition bi : list (option (wfun listK (heap listW))) := weightings listW (bi_weights (k := listK) (3 / 2) (1 / 100) (1 / 2) 3 0).

Lemma local_first ws silent : first_estimation (robust_args ws None silent) tone_set [0%nat] [1%nat] [] [0%nat] [1%nat] ws.
Proof. repeat split. Qed.
Lemma remote_first ws silent : first_estimation (robust_args ws (Some "R"%string) silent) tone_set [0%nat] [1%nat] [2%nat] [1%nat] [2%nat] ws.
Proof. repeat (split; [reflexivity|]). repeat split; [discriminate|]. right. split; [left|]; reflexivity. Qed.
Lemma tone_fit : exact_fit one_period tone_set 1 [0%nat; 1%nat] [0%nat] [1%nat] 0.
Proof.
  destruct tone_coeffs as (coeffs & Hc).
  apply (tones_fit one_period unit_cal tone_set 1 tone_field coeffs [2%nat] [4%nat] [4%nat] [[(3, 4)]]); try assumption.
  - exact tone_reach.
  - exact (flat_no_leak one_period unit_cal tone_set R1 coeffs [2%nat] [4%nat] [4%nat] tone_reach Hc tone_periods).
  - exact tone_sinusoidal.
  - intros c [<-|[]]; left; reflexivity.
  - intros c [<-|[]]; right; left; reflexivity.
  - discriminate.
  - exact tone_transferred.
  - exact tone_polarised.
  - apply Nat.lt_0_1.
Qed.
