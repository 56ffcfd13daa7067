(** The dates of NumTextModel.v follow the calendar. *)
From Coq Require Import QArith Qabs.
From Verif Require Import Base NumTextModel SpecNumText.
Open Scope Z_scope. Local Open Scope list_scope.

Definition leapb (y : Z) : bool := (y mod 4 =? 0) && (negb (y mod 100 =? 0) || (y mod 400 =? 0)).
Definition lenb (y m : Z) : Z :=
  if m =? 2 then (if leapb y then 29 else 28) else if (m =? 4) || (m =? 6) || (m =? 9) || (m =? 11) then 30 else 31.
Definition nextb (a : Z * Z * Z) : Z * Z * Z :=
  let '(y, m, d) := a in if d <? lenb y m then (y, m, d + 1) else if m <? 12 then (y, m + 1, 1) else (y + 1, 1, 1).
Definition goodb (a : Z * Z * Z) : bool :=
  let '(y, m, d) := a in (1 <=? m) && (m <=? 12) && (1 <=? d) && (d <=? lenb y m).
Lemma leap_iff y : is_leap y <-> leapb y = true.
Proof.
  unfold is_leap, leapb. rewrite andb_true_iff, orb_true_iff, negb_true_iff, !Z.eqb_eq, Z.eqb_neq.
  rewrite <- !Z.mod_divide by lia. tauto.
Qed.
Lemma leap_dec y : {leapb y = true} + {~ is_leap y}.
Proof. destruct (leapb y) eqn:E; [left; reflexivity|right]. rewrite leap_iff. congruence. Qed.
Lemma month_len y m n : month_days y m n <-> 1 <= m <= 12 /\ n = lenb y m.
Proof.
  unfold month_days, lenb. rewrite leap_iff. split.
  - intros [[H ->]|[[H ->]|[-> H]]].
    + simpl in H. destruct H as [<-|[<-|[<-|[<-|[<-|[<-|[<-|[]]]]]]]]; (split; [lia|reflexivity]).
    + simpl in H. destruct H as [<-|[<-|[<-|[<-|[]]]]]; (split; [lia|reflexivity]).
    + split; [lia|]. cbn [Z.eqb Pos.eqb]. destruct H as [[-> ->]|[H ->]]; [reflexivity|]. destruct (leapb y); [contradiction H|]; reflexivity.
  - intros [H ->]. assert (C : m = 1 \/ m = 2 \/ m = 3 \/ m = 4 \/ m = 5 \/ m = 6 \/ m = 7 \/ m = 8 \/ m = 9 \/ m = 10 \/ m = 11 \/ m = 12) by lia.
    repeat (destruct C as [C|C]); subst m; cbn [Z.eqb Pos.eqb orb]; try (left; simpl; split; [tauto|reflexivity]); try (right; left; simpl; split; [tauto|reflexivity]).
    right. right. split; [reflexivity|]. destruct (leapb y); [left|right]; (split; [congruence|reflexivity]).
Qed.

Lemma next_iff a b : next_day a b <-> goodb a = true /\ b = nextb a.
Proof.
  destruct a as [[y m] d]. unfold next_day, goodb, nextb. rewrite !andb_true_iff, !Z.leb_le. split.
  - intros (n & Hn & Hd & ->). apply month_len in Hn as [Hm ->]. split; [lia|reflexivity].
  - intros [[[[H1 H2] H3] H4] ->]. exists (lenb y m). rewrite month_len. split; [split; [lia|reflexivity]|]. split; [lia|reflexivity].
Qed.

(** the day [r] of a year, counted from 0 *)
Definition md (leap : bool) (n : Z) : Z * Z :=
  let month := Z.shiftr (n + 50) 5 in
  let preceding := before_month month + leap_days leap month in
  let '(month, preceding) := if n <? preceding then (month - 1, preceding - days_in leap (month - 1)) else (month, preceding) in
  (month, n - preceding + 1).
Definition leap_in (b c d : Z) : bool := (d =? 3) && (negb (c =? 24) || (b =? 3)).

Lemma ord_common a b c d r : 0 <= b < 4 -> 0 <= c < 25 -> 0 <= d < 4 -> 0 <= r < 365 ->
  ord2ymd (1 + 146097 * a + 36524 * b + 1461 * c + 365 * d + r) = (400 * a + 100 * b + 4 * c + d + 1, fst (md (leap_in b c d) r), snd (md (leap_in b c d) r)).
Proof.
  intros Hb Hc Hd Hr. unfold ord2ymd. set (n := 1 + 146097 * a + 36524 * b + 1461 * c + 365 * d + r - 1).
  assert (E1 : n / 146097 = a) by (symmetry; apply (Z.div_unique _ _ _ (36524 * b + 1461 * c + 365 * d + r)); unfold n; lia).
  assert (E2 : n mod 146097 = 36524 * b + 1461 * c + 365 * d + r) by (symmetry; apply (Z.mod_unique _ _ a); unfold n; lia).
  cbv zeta. rewrite E1, E2. clear E1 E2 n.
  assert (E1 : (36524 * b + 1461 * c + 365 * d + r) / 36524 = b) by (symmetry; apply (Z.div_unique _ _ _ (1461 * c + 365 * d + r)); lia).
  assert (E2 : (36524 * b + 1461 * c + 365 * d + r) mod 36524 = 1461 * c + 365 * d + r) by (symmetry; apply (Z.mod_unique _ _ b); lia).
  rewrite E1, E2. clear E1 E2.
  assert (E1 : (1461 * c + 365 * d + r) / 1461 = c) by (symmetry; apply (Z.div_unique _ _ _ (365 * d + r)); lia).
  assert (E2 : (1461 * c + 365 * d + r) mod 1461 = 365 * d + r) by (symmetry; apply (Z.mod_unique _ _ c); lia).
  rewrite E1, E2. clear E1 E2.
  assert (E1 : (365 * d + r) / 365 = d) by (symmetry; apply (Z.div_unique _ _ _ r); lia).
  assert (E2 : (365 * d + r) mod 365 = r) by (symmetry; apply (Z.mod_unique _ _ d); lia).
  rewrite E1, E2. clear E1 E2.
  destruct (Z.eqb_spec d 4); [lia|]. destruct (Z.eqb_spec b 4); [lia|]. cbn [orb]. unfold md. fold (leap_in b c d).
  destruct (if r <? before_month (Z.shiftr (r + 50) 5) + leap_days (leap_in b c d) (Z.shiftr (r + 50) 5) then _ else _) as [mo pr]. cbn [fst snd]. f_equal. f_equal. lia.
Qed.
Lemma ord_fourth a b c : 0 <= b < 4 -> 0 <= c < 24 -> ord2ymd (1 + 146097 * a + 36524 * b + 1461 * c + 1460) = (400 * a + 100 * b + 4 * c + 4, 12, 31).
Proof.
  intros Hb Hc. unfold ord2ymd. set (n := 1 + 146097 * a + 36524 * b + 1461 * c + 1460 - 1).
  assert (E1 : n / 146097 = a) by (symmetry; apply (Z.div_unique _ _ _ (36524 * b + 1461 * c + 1460)); unfold n; lia).
  assert (E2 : n mod 146097 = 36524 * b + 1461 * c + 1460) by (symmetry; apply (Z.mod_unique _ _ a); unfold n; lia).
  cbv zeta. rewrite E1, E2. clear E1 E2 n.
  assert (E1 : (36524 * b + 1461 * c + 1460) / 36524 = b) by (symmetry; apply (Z.div_unique _ _ _ (1461 * c + 1460)); lia).
  assert (E2 : (36524 * b + 1461 * c + 1460) mod 36524 = 1461 * c + 1460) by (symmetry; apply (Z.mod_unique _ _ b); lia).
  rewrite E1, E2. clear E1 E2.
  assert (E1 : (1461 * c + 1460) / 1461 = c) by (symmetry; apply (Z.div_unique _ _ _ 1460); lia).
  assert (E2 : (1461 * c + 1460) mod 1461 = 1460) by (symmetry; apply (Z.mod_unique _ _ c); lia).
  rewrite E1, E2. change (1460 / 365) with 4. cbn [Z.eqb Pos.eqb orb]. f_equal. f_equal. lia.
Qed.
Lemma ord_cycle a : ord2ymd (1 + 146097 * a + 146096) = (400 * a + 400, 12, 31).
Proof.
  unfold ord2ymd. set (n := 1 + 146097 * a + 146096 - 1).
  assert (E1 : n / 146097 = a) by (symmetry; apply (Z.div_unique _ _ _ 146096); unfold n; lia).
  assert (E2 : n mod 146097 = 146096) by (symmetry; apply (Z.mod_unique _ _ a); unfold n; lia).
  cbv zeta. rewrite E1, E2. change (146096 / 36524) with 4. change (146096 mod 36524) with 0. change (0 / 1461) with 0. change (0 mod 1461) with 0. change (0 / 365) with 0.
  cbn [Z.eqb Pos.eqb orb]. f_equal. f_equal. lia.
Qed.

(** every day has one of the three forms *)
Inductive form : Z -> Prop :=
| f_common : forall a b c d r, 0 <= b < 4 -> 0 <= c < 25 -> 0 <= d < 4 -> 0 <= r < 365 -> form (1 + 146097 * a + 36524 * b + 1461 * c + 365 * d + r)
| f_fourth : forall a b c, 0 <= b < 4 -> 0 <= c < 24 -> form (1 + 146097 * a + 36524 * b + 1461 * c + 1460)
| f_cycle : forall a, form (1 + 146097 * a + 146096).
Lemma formed n : form n.
Proof.
  pose proof (Z.div_mod (n - 1) 146097 ltac:(lia)) as E1. pose proof (Z.mod_pos_bound (n - 1) 146097 ltac:(lia)) as B1.
  set (a := (n - 1) / 146097) in *. set (n1 := (n - 1) mod 146097) in *.
  destruct (Z.eq_dec n1 146096) as [E|N1]; [replace n with (1 + 146097 * a + 146096) by lia; constructor|].
  pose proof (Z.div_mod n1 36524 ltac:(lia)) as E2. pose proof (Z.mod_pos_bound n1 36524 ltac:(lia)) as B2.
  set (b := n1 / 36524) in *. set (n2 := n1 mod 36524) in *.
  pose proof (Z.div_mod n2 1461 ltac:(lia)) as E3. pose proof (Z.mod_pos_bound n2 1461 ltac:(lia)) as B3.
  set (c := n2 / 1461) in *. set (n3 := n2 mod 1461) in *.
  destruct (Z.eq_dec n3 1460) as [E|N3]; [replace n with (1 + 146097 * a + 36524 * b + 1461 * c + 1460) by lia; constructor; lia|].
  pose proof (Z.div_mod n3 365 ltac:(lia)) as E4. pose proof (Z.mod_pos_bound n3 365 ltac:(lia)) as B4.
  set (d := n3 / 365) in *. set (r := n3 mod 365) in *.
  replace n with (1 + 146097 * a + 36524 * b + 1461 * c + 365 * d + r) by lia. constructor; lia.
Qed.

Lemma leap_shift y k : leapb (y + 400 * k) = leapb y.
Proof.
  unfold leapb. replace (y + 400 * k) with (y + (100 * k) * 4) at 1 by lia. rewrite Z.mod_add by lia.
  replace (y + 400 * k) with (y + (4 * k) * 100) at 1 by lia. rewrite Z.mod_add by lia.
  replace (y + 400 * k) with (y + k * 400) at 1 by lia. rewrite Z.mod_add by lia. reflexivity.
Qed.
Lemma in_range n k : 0 <= k < Z.of_nat n -> In k (map Z.of_nat (seq 0 n)).
Proof. intros H. apply in_map_iff. exists (Z.to_nat k). rewrite in_seq. lia. Qed.
Lemma leap_in_year a b c d : 0 <= b < 4 -> 0 <= c < 25 -> 0 <= d < 4 -> leapb (400 * a + 100 * b + 4 * c + d + 1) = leap_in b c d.
Proof.
  intros Hb Hc Hd. replace (400 * a + 100 * b + 4 * c + d + 1) with (100 * b + 4 * c + d + 1 + 400 * a) by lia. rewrite leap_shift.
  assert (C : forallb (fun b => forallb (fun c => forallb (fun d => Bool.eqb (leapb (100 * b + 4 * c + d + 1)) (leap_in b c d)) (map Z.of_nat (seq 0 4))) (map Z.of_nat (seq 0 25))) (map Z.of_nat (seq 0 4)) = true) by (vm_compute; reflexivity).
  rewrite forallb_forall in C. specialize (C b (in_range 4 b Hb)). rewrite forallb_forall in C. specialize (C c (in_range 25 c Hc)). rewrite forallb_forall in C.
  specialize (C d (in_range 4 d Hd)). apply Bool.eqb_prop in C. exact C.
Qed.

(** the days of one year, by computation *)
Definition lenl (leap : bool) (m : Z) : Z :=
  if m =? 2 then (if leap then 29 else 28) else if (m =? 4) || (m =? 6) || (m =? 9) || (m =? 11) then 30 else 31.
Lemma lenl_eq y m : lenb y m = lenl (leapb y) m. Proof. reflexivity. Qed.
Definition year_step (leap : bool) (r : Z) : bool :=
  let '(m, d) := md leap r in let '(m', d') := md leap (r + 1) in
  (1 <=? m) && (m <=? 12) && (1 <=? d) && (d <=? lenl leap m) &&
  (if d <? lenl leap m then (m' =? m) && (d' =? d + 1) else (m <? 12) && (m' =? m + 1) && (d' =? 1)).
Lemma year_checked leap r : 0 <= r < 364 -> year_step leap r = true.
Proof.
  intros H. assert (C : forallb (fun r => year_step true r && year_step false r) (map Z.of_nat (seq 0 364)) = true) by (vm_compute; reflexivity).
  rewrite forallb_forall in C. specialize (C r (in_range 364 r H)). apply andb_true_iff in C. destruct leap; tauto.
Qed.

Lemma next_eve y : nextb (y, 12, 31) = (y + 1, 1, 1). Proof. reflexivity. Qed.
Lemma step n : goodb (ord2ymd n) = true /\ ord2ymd (n + 1) = nextb (ord2ymd n).
Proof.
  destruct (formed n) as [a b c d r Hb Hc Hd Hr|a b c Hb Hc|a].
  - rewrite ord_common by assumption. unfold goodb, nextb. rewrite lenl_eq, leap_in_year by assumption.
    destruct (Z.eq_dec r 364) as [->|N].
    + destruct (leap_in b c d) eqn:L.
      * change (md true 364) with (12, 30). cbn [fst snd]. split; [reflexivity|]. unfold leap_in in L. apply andb_true_iff in L as [L1 L2]. apply Z.eqb_eq in L1. subst d.
        apply orb_true_iff in L2. rewrite negb_true_iff, Z.eqb_neq, Z.eqb_eq in L2. destruct (Z.eq_dec c 24) as [->|Nc].
        -- assert (b = 3) by tauto. subst b. replace (1 + 146097 * a + 36524 * 3 + 1461 * 24 + 365 * 3 + 364 + 1) with (1 + 146097 * a + 146096) by lia.
           rewrite ord_cycle. cbn [lenl Z.eqb Pos.eqb orb Z.ltb Z.compare Pos.compare Pos.compare_cont]. f_equal. f_equal. lia.
        -- replace (1 + 146097 * a + 36524 * b + 1461 * c + 365 * 3 + 364 + 1) with (1 + 146097 * a + 36524 * b + 1461 * c + 1460) by lia.
           rewrite ord_fourth by lia. cbn. f_equal. f_equal. lia.
      * change (md false 364) with (12, 31). cbn [fst snd]. split; [reflexivity|]. change (31 <? lenl false 12) with false. change (12 <? 12) with false. cbv iota.
        destruct (Z.eq_dec d 3) as [->|Nd].
        -- unfold leap_in in L. cbn [Z.eqb Pos.eqb andb] in L. apply orb_false_iff in L as [L1 L2]. apply negb_false_iff, Z.eqb_eq in L1. apply Z.eqb_neq in L2. subst c.
           replace (1 + 146097 * a + 36524 * b + 1461 * 24 + 365 * 3 + 364 + 1) with (1 + 146097 * a + 36524 * (b + 1) + 1461 * 0 + 365 * 0 + 0) by lia.
           rewrite ord_common by lia. change (md (leap_in (b + 1) 0 0) 0) with (1, 1). cbn [fst snd]. f_equal. f_equal. lia.
        -- replace (1 + 146097 * a + 36524 * b + 1461 * c + 365 * d + 364 + 1) with (1 + 146097 * a + 36524 * b + 1461 * c + 365 * (d + 1) + 0) by lia.
           rewrite ord_common by lia. replace (md (leap_in b c (d + 1)) 0) with (1, 1) by (destruct (leap_in b c (d + 1)); reflexivity). cbn [fst snd]. f_equal. f_equal. lia.
    + replace (1 + 146097 * a + 36524 * b + 1461 * c + 365 * d + r + 1) with (1 + 146097 * a + 36524 * b + 1461 * c + 365 * d + (r + 1)) by lia.
      rewrite ord_common by lia. pose proof (year_checked (leap_in b c d) r ltac:(lia)) as Y. unfold year_step in Y.
      destruct (md (leap_in b c d) r) as [m e], (md (leap_in b c d) (r + 1)) as [m' e']. cbn [fst snd]. apply andb_true_iff in Y as [Y1 Y2]. split; [exact Y1|].
      destruct (e <? lenl (leap_in b c d) m).
      * apply andb_true_iff in Y2 as [A B]. apply Z.eqb_eq in A, B. subst. reflexivity.
      * rewrite !andb_true_iff in Y2. destruct Y2 as [[Y2 A] B]. rewrite Y2. apply Z.eqb_eq in A, B. subst. reflexivity.
  - rewrite ord_fourth by assumption. split; [reflexivity|].
    replace (1 + 146097 * a + 36524 * b + 1461 * c + 1460 + 1) with (1 + 146097 * a + 36524 * b + 1461 * (c + 1) + 365 * 0 + 0) by lia.
    rewrite ord_common by lia. replace (md (leap_in b (c + 1) 0) 0) with (1, 1) by (destruct (leap_in b (c + 1) 0); reflexivity). rewrite next_eve. cbn [fst snd]. f_equal. f_equal. lia.
  - rewrite ord_cycle. split; [reflexivity|]. replace (1 + 146097 * a + 146096 + 1) with (1 + 146097 * (a + 1) + 36524 * 0 + 1461 * 0 + 365 * 0 + 0) by lia.
    rewrite ord_common by lia. change (md (leap_in 0 0 0) 0) with (1, 1). rewrite next_eve. cbn [fst snd]. f_equal. f_equal. lia.
Qed.

(** two days with the same next day are the same *)
Lemma len_pos y m : 28 <= lenb y m <= 31.
Proof. unfold lenb. repeat match goal with |- context [if ?c then _ else _] => destruct c end; lia. Qed.
Lemma next_inj a b : goodb a = true -> goodb b = true -> nextb a = nextb b -> a = b.
Proof.
  destruct a as [[y m] d], b as [[y' m'] d']. unfold goodb, nextb. rewrite !andb_true_iff, !Z.leb_le. intros [[[A1 A2] A3] A4] [[[B1 B2] B3] B4].
  pose proof (len_pos y m). pose proof (len_pos y' m').
  intros E. assert (Q : y = y' /\ m = m').
  { revert E. destruct (Z.ltb_spec d (lenb y m)), (Z.ltb_spec d' (lenb y' m')); try destruct (Z.ltb_spec m 12); try destruct (Z.ltb_spec m' 12); intros E; injection E; intros; lia. }
  destruct Q as [-> ->]. revert E. destruct (Z.ltb_spec d (lenb y' m')), (Z.ltb_spec d' (lenb y' m')); try destruct (Z.ltb_spec m' 12); intros E; f_equal; try (injection E; intros); lia.
Qed.

Lemma day_model n : day n (ord2ymd (n + 719163)).
Proof.
  assert (U : forall k, 0 <= k -> day k (ord2ymd (k + 719163))).
  { apply natlike_ind; [exact day_epoch|]. intros k Hk IH. unfold Z.succ. eapply day_after; [exact IH|]. apply next_iff. replace (k + 1 + 719163) with (k + 719163 + 1) by lia. apply step. }
  assert (D : forall k, 0 <= k -> day (- k) (ord2ymd (- k + 719163))).
  { apply natlike_ind; [exact day_epoch|]. intros k Hk IH. replace (- Z.succ k) with (- k - 1) by lia. eapply day_before; [exact IH|]. apply next_iff.
    replace (- k + 719163) with (- k - 1 + 719163 + 1) by lia. apply step. }
  destruct (Z_le_gt_dec 0 n); [apply U; assumption|]. replace n with (- (- n)) by lia. apply D. lia.
Qed.
Lemma day_only n a : day n a -> a = ord2ymd (n + 719163).
Proof.
  induction 1 as [|n a b H IH N|n a b H IH N].
  - vm_compute. reflexivity.
  - apply next_iff in N as [_ ->]. rewrite IH. replace (n + 1 + 719163) with (n + 719163 + 1) by lia. symmetry. apply step.
  - apply next_iff in N as [G ->]. apply next_inj; [exact G|apply step|]. rewrite IH. replace (n + 719163) with (n - 1 + 719163 + 1) by lia. apply step.
Qed.
