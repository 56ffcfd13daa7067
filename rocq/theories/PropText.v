(** The printed forms of signal sets, runs, inventories and weights (C105-C107). *)
From Coq Require Import QArith Qcanon.
From Verif Require Import Base BaseLemmas Arith OrdLaws TagsModel SpecTags SyncModel SetModel SpecSet SetProofs ReprModel SpecRepr ReprProofs Samples
  NumTextModel SpecNumText DateProofs NumTextUnique DateText SetTextModel SpecSetText SetTextProofs WeightTextModel SpecWeightText WeightTextProofs.
Open Scope nat_scope. Local Open Scope string_scope. Local Open Scope list_scope. Local Open Scope nat_scope.

(** C105: a number shown with [p] digits is the nearest decimal with that many digits, the
    even one of two, written without useless zeros. *)
Theorem C105_number : forall p x t, (1 <= p)%Z -> (gtext p x = t <-> exists v, rounded p x v /\ written p v t).
Proof. exact gtext_iff. Qed.
Print Assumptions C105_number.

Example C105_numbers :
  map (gtext 6) [3 # 2; 1000000; 999999; 1 # 100000; 1 # 10000; -1 # 3; 0; 123456789; 9999995 # 10; 5 # 10000000]%Q =
    ["1.5"; "1e+06"; "999999"; "1e-05"; "0.0001"; "-0.333333"; "0"; "1.23457e+08"; "1e+06"; "5e-07"] /\
  map (gtext 2) [25 # 1000; 125 # 10; 135 # 10; 99 # 10; 995 # 100; 1700000000]%Q = ["0.025"; "12"; "14"; "9.9"; "10"; "1.7e+09"].
Proof. split; vm_compute; reflexivity. Qed.

(** C105: a time is shown as the date and time, in the Gregorian calendar, of the nearest
    second. *)
Theorem C105_date : forall sec s, date sec = Ok s <-> exists t, nearest sec t /\ instant t s.
Proof. exact date_ok. Qed.
Print Assumptions C105_date.

Theorem C105_date_fails : forall sec e,
  date sec = Err e <-> e = ValueError /\ exists t, nearest sec t /\ (t < -62135596800 \/ 253402300799 < t)%Z.
Proof. exact date_err. Qed.
Print Assumptions C105_date_fails.

(** every day has one date *)
Theorem C105_calendar : forall n, exists a, day n a /\ forall b, day n b -> b = a.
Proof. intros n. exists (ord2ymd (n + 719163)). split; [apply day_model|apply day_only]. Qed.
Print Assumptions C105_calendar.

Example C105_dates :
  date (inject_Z 951782400) = Ok "2000-02-29 00:00:00" /\ date (951868799 # 1) = Ok "2000-02-29 23:59:59" /\
  date (4107542399 # 1) = Ok "2100-02-28 23:59:59" /\ date (4107542400 # 1) = Ok "2100-03-01 00:00:00" /\
  date (-1 # 1) = Ok "1969-12-31 23:59:59" /\ date (1 # 2) = Ok "1970-01-01 00:00:00" /\ date (3 # 2) = Ok "1970-01-01 00:00:02" /\
  date (-62135596800 # 1) = Ok "0001-01-01 00:00:00" /\ date (253402300799 # 1) = Ok "9999-12-31 23:59:59" /\ date (253402300800 # 1) = Err ValueError.
Proof. vm_compute. repeat split; reflexivity. Qed.

(** ** C106: signal sets *)
Theorem C106_set : forall (A : Arith) (V K : Type) (val : num A -> Q) (X : @sigset A V K) t, tags_valid (ss_tags X) ->
  (set_str val X = Ok t <-> (forall l, ~ reads (ss_tags X) "items" l) /\ printed val X t).
Proof. exact @set_str_iff. Qed.
Print Assumptions C106_set.

Theorem C106_set_fails : forall (A : Arith) (V K : Type) (val : num A -> Q) (X : @sigset A V K) e, tags_valid (ss_tags X) ->
  (set_str val X = Err e <->
   (exists l1 s l2, ss_signals X = l1 ++ s :: l2 /\ (forall r, In r l1 -> exists t, row_of val r t) /\ unprintable val s e) \/
   (e = TypeError /\ (exists l, reads (ss_tags X) "items" l) /\ forall r, In r (ss_signals X) -> exists t, row_of val r t)).
Proof. exact @set_str_fails. Qed.
Print Assumptions C106_set_fails.

(** runs; [show] is [str] of a float *)
Theorem C106_run : forall (A : Arith) (V K : Type) (val : num A -> Q) (show : num A -> string) (s : sync A V K) t,
  sync_str val show s = Ok t <-> described val s (show (s_rate s)) t.
Proof. exact @sync_str_iff. Qed.
Print Assumptions C106_run.

Theorem C106_run_fails : forall (A : Arith) (V K : Type) (val : num A -> Q) (show : num A -> string) (s : sync A V K) e,
  sync_str val show s = Err e <-> unprintable val s e.
Proof. exact @sync_str_fails. Qed.
Print Assumptions C106_run_fails.

(** inventories list the texts of their members, with two digits for rates and starts *)
Theorem C106_inventory : forall (A : Arith) (V K : Type) (val : num A -> Q) (inv : list (@sigset A V K)),
  (forall X k l, In X inv -> reads (ss_tags X) k l -> tame k) ->
  exists show, (forall x, approx 2 (val x) (show x)) /\ inv_repr val inv = Ok ("Inventory([" ++ listed (map (set_text show) inv) ++ "])")%string.
Proof. exact @inv_repr_plain. Qed.
Print Assumptions C106_inventory.

Definition four : xset := set_of [("E", RTuple [0%Z; 1%Z]); ("Ex", RTuple [0%Z]); ("Ey_long_name", RTuple [1%Z]); ("Hx", RTuple [2%Z]); ("Hy", RTuple [3%Z])]
  [run 4 20 (qd 1 2) (q 1700000000); run 4 7 (qd 2 3) (q 1800000000)].
Definition lines (l : list string) : string := in_lines l.
Example C106_example :
  reach tt four /\ tags_valid (ss_tags four) /\ (forall l, ~ reads (ss_tags four) "items" l) /\
  set_str (A := QA) this four = Ok (lines ["SignalSet: 4 channels, 2 runs";
    "tags: {'Ex': (0,), 'Ey_long_name': (1,), "; "       'Hx': (2,), 'Hy': (3,), 'E': (0, 1)}"; rule;
    "  sampling                start                 stop";
    "       0.5  2023-11-14 22:13:20  2023-11-14 22:13:58"; "   0.66667  2027-01-15 08:00:00  2027-01-15 08:00:09"; rule]) /\
  sync_str (A := QA) this (fun _ => "0.5") (run 4 20 (qd 1 2) (q 1700000000)) = Ok (lines ["SyncSignal"; "  - nb of channels :   4"; "  - signal size    :   20";
    "  - sampling rate  :   0.5 Hz"; "  - start          :   2023-11-14 22:13:20"; "  - stop           :   2023-11-14 22:13:58"]) /\
  sync_str (A := QA) this (fun _ => "0.5") (run 4 20 (qd 1 2) (q 253402300790)) = Err ValueError /\
  (forall X k l, In X [four] -> reads (ss_tags X) k l -> tame k) /\
  inv_repr (A := QA) this [four] = Ok ("Inventory([SignalSet({'E': (0, 1), 'Ex': (0,), 'Ey_long_name': (1,), 'Hx': (2,), 'Hy': (3,)}, " ++
    "SyncSignal([4x20], sampling_rate=0.5, start=1.7e+09, calibrations=[...]), SyncSignal([4x7], sampling_rate=0.67, start=1.8e+09, calibrations=[...]))])")%string.
Proof.
  assert (R : reach tt four). { apply set_reach; [vm_compute; reflexivity|]. intros s [<-|[<-|[]]]; apply run_reach; vm_compute; reflexivity. }
  split; [exact R|]. split; [apply (ws_tags _ (reach_wf tt QA_ord _ R))|]. split; [|split; [vm_compute; reflexivity|split; [vm_compute; reflexivity|split; [vm_compute; reflexivity|split; [|vm_compute; reflexivity]]]]].
  - intros l H. vm_compute in H. intuition discriminate.
  - intros X k l [<-|[]] H. intros c Hc. vm_compute in H. decompose [or] H; try contradiction; match goal with E : (_, _) = (_, _) |- _ => injection E as <- <- end; vm_compute in Hc; decompose [or] Hc; subst; try contradiction; (split; [cbn; lia|intros G; vm_compute in G; intuition discriminate]).
Qed.

(** ** C107: weights *)
Theorem C107_text : forall w t, wstr w = Ok t <-> shown w t.
Proof. exact wstr_iff. Qed.
Print Assumptions C107_text.

Theorem C107_fails : forall w e, wstr w = Err e <-> e = TypeError /\ forall t, ~ shown w t.
Proof.
  intros w e. split.
  - intros H. split; [eapply wstr_type; exact H|]. intros t Ht. apply wstr_iff in Ht. congruence.
  - intros [-> N]. destruct (wstr w) as [t|x] eqn:E; [destruct (N t); apply wstr_iff; exact E|]. rewrite (wstr_type _ _ E). reflexivity.
Qed.
Print Assumptions C107_fails.

(** a sequence without a name cannot be shown inside another one *)
Theorem C107_nested : forall c1 d c2, wstr (WSeq (c1 ++ WSeq d None :: c2) None) = Err TypeError.
Proof. intros c1 d c2. destruct (nested_fails c1 d c2) as [e E]. rewrite E. f_equal. eapply wstr_type, E. Qed.
Print Assumptions C107_nested.

(** sequences of weights that are not sequences always have a text *)
Theorem C107_sequence : forall c, (forall w, In w c -> simple w) -> exists ts, members c ts /\ wstr (WSeq c None) = Ok ("(" ++ listed ts ++ ")")%string.
Proof. exact sequence_text. Qed.
Print Assumptions C107_sequence.

(** the members of a sequence, from both ends *)
Theorem C107_index : forall c n i w, let s := weights_new c n in
  w_iter s = c /\ w_len s = length c /\
  (w_index s i = Ok w <-> exists k, nth_error c k = Some w /\ (i = Z.of_nat k \/ i = Z.of_nat k - Z.of_nat (length c))%Z) /\
  (forall e, w_index s i = Err e <-> e = IndexError /\ (i < - Z.of_nat (length c) \/ Z.of_nat (length c) <= i)%Z).
Proof. intros c n i w. split; [reflexivity|]. split; [reflexivity|]. split; [apply w_index_spec|]. intros e. apply w_index_fails. Qed.
Print Assumptions C107_index.

(** an empty name counts as none *)
Theorem C107_name : forall c n t, n <> "" -> wstr (weights_new c (Some n)) = Ok n /\ (wstr (weights_new c (Some "")) = Ok t <-> shown (WSeq c None) t) /\ (wstr (weights_new c None) = Ok t <-> shown (WSeq c None) t).
Proof. intros c n t H. split; [destruct n; [destruct (H eq_refl)|reflexivity]|]. split; apply wstr_iff. Qed.
Print Assumptions C107_name.

Theorem C107_thomson : forall xi w, (thomson_new xi = Ok w <-> w = WThomson xi /\ match xi with None => True | Some x => (0 < x)%Q end) /\
  (forall e, thomson_new xi = Err e <-> e = AssertionError /\ exists x, xi = Some x /\ (x <= 0)%Q).
Proof. intros xi w. split; [apply thomson_new_iff|]. intros e. apply thomson_new_fails. Qed.
Print Assumptions C107_thomson.

(** the sequences of the library *)
Theorem C107_mest : wstr mest_weights_obj = Ok "M_estimator_weights" /\ w_iter mest_weights_obj = [WNone; WHuber (3 # 2); WThomson None] /\
  wstr least_square_obj = Ok "least_square_weights" /\ w_iter least_square_obj = [WNone] /\
  map wstr (w_iter mest_weights_obj) = [Ok "None"; Ok "Huber(1.5)"; Ok "Thomson()"].
Proof. vm_compute. repeat split; reflexivity. Qed.
Print Assumptions C107_mest.

Theorem C107_bi : forall prob n dim lower upper, let w := bi_weights_obj prob n dim lower upper in let N := Z.to_nat n in
  (forall t, wstr w = Ok t <-> exists a b c, approx 6 prob a /\ approx 6 (inject_Z n) b /\ approx 6 dim c /\ t = ("bi_weights(" ++ a ++ ", " ++ b ++ ", " ++ c ++ ")")%string) /\
  w_len w = N + 2 /\ w_index w 0 = Ok WNone /\ w_index w (-1) = Ok (WBounded (WThomson None) lower upper) /\
  forall j, j < N -> exists lo up, w_index w (Z.of_nat (1 + j)) = Ok (WBounded (WHuber (3 # 2)) lo up) /\
    (lo * inject_Z (2 ^ Z.of_nat (N - 1 - j)) == lower)%Q /\ (up == upper * inject_Z (2 ^ Z.of_nat (N - 1 - j)))%Q.
Proof. intros prob n dim lower upper. split; [intros t; apply bi_obj_text|apply bi_obj_members]. Qed.
Print Assumptions C107_bi.

Example C107_example :
  wstr (WSeq [WNone; WFunc "f" "<function f>"; WHuber (5 # 3); WThomson (Some (1 # 4)); WBounded (WFunc "f" "<function f>") (1 # 3) 8; mest_weights_obj] None) =
    Ok "(None, f, Huber(1.66667), Thomson(0.25), BoundedInfluenceStep(f, 0.333333, 8), M_estimator_weights)" /\
  wstr (bi_weights_obj (1 # 100) 2 2 (1 # 2) 8) = Ok "bi_weights(0.01, 2, 2)" /\
  map wstr (w_iter (bi_weights_obj (1 # 100) 2 2 (1 # 2) 8)) = [Ok "None"; Ok "BoundedInfluenceStep(Huber(1.5), 0.25, 16)"; Ok "BoundedInfluenceStep(Huber(1.5), 0.5, 8)"; Ok "BoundedInfluenceStep(Thomson(), 0.5, 8)"] /\
  (forall w, In w [WNone; WHuber (3 # 2)] -> simple w) /\ wstr (WSeq [WNone; WHuber (3 # 2)] None) = Ok "(None, Huber(1.5))".
Proof. split; [vm_compute; reflexivity|]. split; [vm_compute; reflexivity|]. split; [vm_compute; reflexivity|]. split; [|vm_compute; reflexivity]. intros w [<-|[<-|[]]]; exact I. Qed.
