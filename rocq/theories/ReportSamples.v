(** The recordings of WholeSamples.v are reachable and have errors that are not 0. *)
From Coq Require Import Reals Lra Lia.
From Coquelicot Require Import Complex.
From Verif Require Import Base BaseLemmas Arith TagsModel SyncModel SetModel SpecSet FourierModel MestModel WeightModel RobustModel BiModel FullModel UtilsModel SpecUtils WholeModel SpecWhole SpecRemote
  SpecReport WholeSamples.
Local Open Scope R_scope.

Lemma plain_reach : reach unit_cal plain_set.
Proof.
  eapply (r_new unit_cal (TDict [("E", RInt 0); ("B", RInt 1); ("R", RInt 2)]%string) [ASync (run_of [yE; yB; yE] [unit_cal; unit_cal; unit_cal])]).
  - constructor.
  - intros a [<-|[]]. constructor. apply (rs_new unit_cal [yE; yB; yE] (4 : num RA) (0 : num RA) (Some [unit_cal; unit_cal; unit_cal])). reflexivity.
  - assert (I : exists i, s_interval (run_of [yE; yB; yE] [unit_cal; unit_cal; unit_cal]) = Ok i).
    { unfold s_interval, s_stop, index_to_time. cbn [run_of s_rate s_size s_start]. change (neqb RA 4 (nzero RA)) with (Reqb 4 0). unfold Reqb.
      destruct (Req_EM_T 4 0) as [H|_]; [lra|]. eexists. reflexivity. }
    destruct I as ([i1 i2] & I). unfold set_new. cbn [mapM bind]. unfold set_of_syncs. cbn [concat app mapM]. rewrite I. reflexivity.
Qed.

Lemma g_value (g : nat -> nat -> C) : inverse three 2 [1%nat] [] None g -> g 0%nat 0%nat = RtoC (1 / 4).
Proof.
  intros H. specialize (H 0%nat 0%nat ltac:(repeat constructor) ltac:(repeat constructor)). revert H.
  cbv [cross input csum channel at_window three List.length List.map List.seq fold_right nth Nat.eqb].
  destruct (g 0%nat 0%nat) as [x y]. unfold Cplus, Cmult, Cconj, RtoC. cbn [fst snd]. intros H; injection H as H1 H2. f_equal; lra.
Qed.
Lemma error_value g : inverse three 2 [1%nat] [] None g -> error_of three 2 [0%nat] [1%nat] [] [[RtoC (1 / 2)]] None g 0 0 0 = 1 / 2.
Proof.
  intros H. unfold error_of. rewrite (g_value _ H).
  assert (E : total_misfit three 2 [0%nat] [1%nat] [] [[RtoC (1 / 2)]] None 0 = 1).
  { unfold total_misfit, rsum. cbn [List.seq List.map fold_right].
    assert (M0 : misfit three [0%nat] [1%nat] [] [[RtoC (1 / 2)]] None 0 0 = RtoC 0).
    { cbv [misfit input csum channel at_window three List.length List.map List.seq fold_right nth]. unfold Cminus, Copp, Cplus, Cmult, RtoC. cbn [fst snd]. f_equal; lra. }
    assert (M1 : misfit three [0%nat] [1%nat] [] [[RtoC (1 / 2)]] None 0 1 = RtoC 1).
    { cbv [misfit input csum channel at_window three List.length List.map List.seq fold_right nth]. unfold Cminus, Copp, Cplus, Cmult, RtoC. cbn [fst snd]. f_equal; lra. }
    rewrite M0, M1, Cmod_0, Cmod_1. replace (0 ^ 2 + (1 ^ 2 + 0)) with 1 by lra. apply sqrt_1. }
  rewrite E, Cmod_R. cbn [List.length Nat.sub INR]. rewrite Rabs_pos_eq by lra. rewrite sqrt_1.
  replace (1 / 4) with ((1 / 2) * (1 / 2)) by lra. rewrite sqrt_square by lra. lra.
Qed.

(** the third channel in the place of the magnetic one: no noise *)
Definition quiet_args (remote : option string) : arguments :=
  mkIargs (k := listK) (St := heap listW) [None] None remote None None "E" "R" (mkOpts listK (1 / 1000 : R) 100%Z (1 / 1000 : R)) false true true.
Lemma quiet_noise i t : (i < 1)%nat -> (t < 2)%nat -> noise three [0%nat] [2%nat] [[RtoC 1]] i t = RtoC 0.
Proof. destruct i as [|i]; [|lia]. destruct t as [|[|t]]; [| |lia]; intros _ _; sums; f_equal; lra. Qed.
Lemma quiet_noise_back j t : (j < 1)%nat -> (t < 2)%nat -> noise three [2%nat] [0%nat] [[RtoC 1]] j t = RtoC 0.
Proof. destruct j as [|j]; [|lia]. destruct t as [|[|t]]; [| |lia]; intros _ _; sums; f_equal; lra. Qed.
Lemma three_separate0 : separate three 2 [0%nat].
Proof.
  intros v H [|j] Hj; [|cbn in Hj; lia]. specialize (H 0%nat ltac:(lia)). revert H. sums. destruct (v 0%nat) as [x y]. cbn [fst snd].
  intros H; injection H as H1 H2. f_equal; lra.
Qed.
