(** Proofs about data files and commands. *)
From Verif Require Import Base BaseLemmas PathModel DataModel SpecData.

Lemma path_eqb_eq p q : path_eqb p q = true <-> p = q.
Proof.
  unfold path_eqb. destruct p as [a l], q as [b m]. cbn [p_abs p_parts]. rewrite andb_true_iff, Bool.eqb_true_iff.
  destruct (list_eq_dec _ l m) as [E|E]; split.
  - intros (-> & _). congruence.
  - intros H. injection H. auto.
  - intros (_ & H). discriminate.
  - intros H. injection H. intros. congruence.
Qed.

(** ** names *)
Definition kept (c : text) : bool := negb (teqb c []) && negb (teqb c [c_dot]).
Lemma kept_idle c : kept c = false <-> idle c.
Proof.
  unfold kept, idle, teqb. destruct (list_eq_dec ascii_dec c []) as [->|H1]; simpl; [split; auto|].
  destruct (list_eq_dec ascii_dec c [c_dot]) as [->|H2]; simpl; [split; auto|]. split; [discriminate|]. intros [E|E]; contradiction.
Qed.
Lemma kept_true c : kept c = true <-> ~ idle c.
Proof. rewrite <- kept_idle. destruct (kept c); split; congruence. Qed.
Lemma split_plain c : plain c -> split_slash c = [c].
Proof.
  induction c as [|x c IH]; intros H; [reflexivity|]. simpl. unfold is. destruct (Ascii.eqb_spec x c_slash) as [->|Hx].
  - exfalso. apply H. left. reflexivity.
  - rewrite IH; [reflexivity|]. intros Hc. apply H. right. exact Hc.
Qed.
Lemma split_app c s : plain c -> split_slash (c ++ c_slash :: s) = c :: split_slash s.
Proof.
  induction c as [|x c IH]; intros H; [reflexivity|]. simpl. unfold is. destruct (Ascii.eqb_spec x c_slash) as [->|Hx].
  - exfalso. apply H. left. reflexivity.
  - rewrite IH; [reflexivity|]. intros Hc. apply H. right. exact Hc.
Qed.
Lemma reads_filter s l : reads s l -> filter kept (split_slash s) = l.
Proof.
  induction 1 as [c H1 H2|c H1 H2|c s l H1 H2 H IH|c s l H1 H2 H IH].
  - rewrite (split_plain _ H1). simpl. rewrite (proj2 (kept_idle c) H2). reflexivity.
  - rewrite (split_plain _ H1). simpl. rewrite (proj2 (kept_true c) H2). reflexivity.
  - rewrite (split_app _ _ H1). simpl. rewrite (proj2 (kept_idle c) H2). exact IH.
  - rewrite (split_app _ _ H1). simpl. rewrite (proj2 (kept_true c) H2), IH. reflexivity.
Qed.
Lemma first_slash s : plain s \/ exists c r, s = c ++ c_slash :: r /\ plain c.
Proof.
  induction s as [|x s IH]; [left; intros []|]. destruct (ascii_dec x c_slash) as [->|Hx].
  - right. exists [], s. split; [reflexivity|intros []].
  - destruct IH as [H|(c & r & -> & H)].
    + left. intros [E|E]; [exact (Hx E)|contradiction].
    + right. exists (x :: c), r. split; [reflexivity|]. intros [E|E]; [exact (Hx E)|contradiction].
Qed.
Lemma reads_exists : forall n s, length s <= n -> reads s (filter kept (split_slash s)).
Proof.
  induction n as [|n IH]; intros s Hn.
  - destruct s; [|simpl in Hn; lia]. apply reads_idle; [intros []|left; reflexivity].
  - destruct (first_slash s) as [H|(c & r & -> & H)].
    + rewrite (split_plain _ H). simpl. destruct (kept s) eqn:E; [apply reads_last|apply reads_idle]; try exact H; [apply kept_true|apply kept_idle]; exact E.
    + rewrite (split_app _ _ H). simpl. rewrite app_length in Hn. simpl in Hn.
      destruct (kept c) eqn:E; [apply reads_cons|apply reads_skip]; try exact H; try (apply IH; lia); [apply kept_true|apply kept_idle]; exact E.
Qed.
Lemma parse_means s p : parse_path s = p <-> means s p.
Proof.
  assert (Ha : p_abs (parse_path s) = true <-> exists r, s = c_slash :: r).
  { destruct s as [|x s]; simpl; [split; [discriminate|intros (r & E); discriminate]|]. unfold is. rewrite Ascii.eqb_eq.
    split; [intros ->; eauto|intros (r & E); injection E; auto]. }
  split.
  - intros <-. split; [|exact Ha]. exact (reads_exists _ s (Nat.le_refl _)).
  - intros (H1 & H2). apply reads_filter in H1. destruct p as [a parts]. cbn [p_abs p_parts] in *.
    change c_slash with "/"%char in Ha. rewrite <- Ha in H2. unfold parse_path in *. cbn [p_abs] in H2. f_equal; [|exact H1].
    apply Bool.eq_true_iff_eq. symmetry. exact H2.
Qed.

Section Lookup.
Variables (pkg cwd : path) (fs : fsys).

Lemma lookup_ok f dir p :
  let local := cwd // t_data // dir in let default := pkg // t_data // dir in
  get_data_file pkg cwd fs f dir = Ok p <->
  (p_is_dir fs local = true /\ p_exists fs (local // f) = true /\ p = local // f) \/
  ((p_is_dir fs local = false \/ p_exists fs (local // f) = false) /\ p_exists fs (default // f) = true /\ p = default // f).
Proof.
  cbv zeta. unfold get_data_file, data_path, default_data_path. set (L := cwd // t_data // dir). set (D := pkg // t_data // dir).
  destruct (p_is_dir fs L) eqn:E1; cbn [map find].
  - destruct (p_exists fs (L // f)) eqn:E2; cbn [of_option].
    + split; [intros H; injection H as <-; left; auto|]. intros [(_ & _ & ->)|([H|H] & _)]; [reflexivity|discriminate..].
    + destruct (p_exists fs (D // f)) eqn:E3; cbn [of_option].
      * split; [intros H; injection H as <-; right; auto|]. intros [(_ & H & _)|(_ & _ & ->)]; [discriminate|reflexivity].
      * split; [discriminate|]. intros [(_ & H & _)|(_ & H & _)]; discriminate.
  - destruct (p_exists fs (D // f)) eqn:E3; cbn [of_option].
    + split; [intros H; injection H as <-; right; auto|]. intros [(H & _ & _)|(_ & _ & ->)]; [discriminate|reflexivity].
    + split; [discriminate|]. intros [(H & _)|(_ & H & _)]; discriminate.
Qed.

Lemma lookup_err f dir e :
  let local := cwd // t_data // dir in let default := pkg // t_data // dir in
  get_data_file pkg cwd fs f dir = Err e <->
  e = ValueError /\ (p_is_dir fs local = false \/ p_exists fs (local // f) = false) /\ p_exists fs (default // f) = false.
Proof.
  cbv zeta. unfold get_data_file, data_path, default_data_path. set (L := cwd // t_data // dir). set (D := pkg // t_data // dir).
  destruct (p_is_dir fs L) eqn:E1; cbn [map find].
  - destruct (p_exists fs (L // f)) eqn:E2; cbn [of_option].
    + split; [discriminate|]. intros (_ & [H|H] & _); discriminate.
    + destruct (p_exists fs (D // f)) eqn:E3; cbn [of_option].
      * split; [discriminate|]. intros (_ & _ & H); discriminate.
      * split; [intros H; injection H as <-; auto|]. intros (-> & _). reflexivity.
  - destruct (p_exists fs (D // f)) eqn:E3; cbn [of_option].
    + split; [discriminate|]. intros (_ & _ & H); discriminate.
    + split; [intros H; injection H as <-; auto|]. intros (-> & _). reflexivity.
Qed.

Lemma lookup_absolute f dir : p_abs (parse_path f) = true ->
  get_data_file pkg cwd fs f dir = if p_exists fs (parse_path f) then Ok (parse_path f) else Err ValueError.
Proof.
  intros H. unfold get_data_file, path_join. rewrite H. cbn [map find].
  destruct (p_exists fs (parse_path f)); reflexivity.
Qed.
End Lookup.

Lemma lookup_spelling pkg cwd fs f f' d d' p q : means f p -> means f' p -> means d q -> means d' q ->
  get_data_file pkg cwd fs f d = get_data_file pkg cwd fs f' d'.
Proof.
  rewrite <- !parse_means. intros H1 H2 H3 H4. unfold get_data_file, data_path, default_data_path. cbv zeta. cbn [map].
  rewrite H1, H2, H3, H4. reflexivity.
Qed.

(** ** creating the local directory *)
Lemma above_In p q : existsb (path_eqb p) (q :: ancestors q) = true <-> above p q.
Proof.
  rewrite existsb_exists. unfold above. split.
  - intros (x & Hx & E). apply path_eqb_eq in E. subst x. destruct Hx as [->|Hx].
    + split; [reflexivity|]. exists []. rewrite app_nil_r. reflexivity.
    + apply in_map_iff in Hx as (n & <- & _). cbn [p_abs p_parts]. split; [reflexivity|]. exists (skipn n (p_parts q)).
      symmetry. apply firstn_skipn.
  - intros (Ha & rest & Hr). exists p. split; [|apply path_eqb_eq; reflexivity].
    destruct rest as [|x rest].
    + left. rewrite app_nil_r in Hr. destruct p as [pa pl], q as [qa ql]. cbn [p_abs p_parts] in *. congruence.
    + right. apply in_map_iff. exists (length (p_parts p)). split.
      * rewrite Hr, firstn_app, Nat.sub_diag, firstn_all. simpl. rewrite app_nil_r, <- Ha. destruct p; reflexivity.
      * apply in_seq. rewrite Hr, app_length. simpl. lia.
Qed.

Lemma above_not p q : existsb (path_eqb p) (q :: ancestors q) = false <-> ~ above p q.
Proof. rewrite <- above_In. destruct (existsb _ _); split; intros; congruence || (exfalso; auto). Qed.

Section Create.
Variables (pkg cwd : path).

Lemma create_inv fs target fs' p : path_action pkg cwd fs true target = Ok (fs', Created p) ->
  p = local_data_path cwd target /\ fs p = None /\
  (forall q, above q p -> fs q <> Some false) /\
  (forall q, above q p -> fs' q = Some true) /\ (forall q, ~ above q p -> fs' q = fs q).
Proof.
  unfold path_action. cbn [negb]. unfold p_exists. destruct (fs (local_data_path cwd target)) eqn:E; [discriminate|].
  intros H. apply bind_ok in H as (f2 & Hm & H). injection H as -> <-. split; [reflexivity|]. split; [exact E|].
  unfold mkdir in Hm. apply bind_ok in Hm as ([] & Hc & Hm). apply check_ok in Hc. injection Hm as <-.
  rewrite forallb_forall in Hc. set (p := local_data_path cwd target) in *. split; [|split].
  - intros q Hq. apply above_In in Hq. apply existsb_exists in Hq as (x & Hx & Ex). apply path_eqb_eq in Ex. subst x.
    destruct Hx as [<-|Hx]; [congruence|]. specialize (Hc q Hx). destruct (fs q) as [[]|]; congruence.
  - intros q Hq. apply above_In in Hq. change ((if existsb (path_eqb q) (p :: ancestors p) then Some true else fs q) = Some true). rewrite Hq. reflexivity.
  - intros q Hq. apply above_not in Hq. change ((if existsb (path_eqb q) (p :: ancestors p) then Some true else fs q) = fs q). rewrite Hq. reflexivity.
Qed.

Lemma create_cases fs target : let p := local_data_path cwd target in
  (path_action pkg cwd fs true target = Ok (fs, Exists p) <-> p_exists fs p = true) /\
  ((exists fs', path_action pkg cwd fs true target = Ok (fs', Created p)) <-> p_exists fs p = false /\ forall q, above q p -> fs q <> Some false) /\
  (forall x, path_action pkg cwd fs true target = Err x <-> x = OtherException /\ p_exists fs p = false /\ exists q, above q p /\ fs q = Some false).
Proof.
  intros p. unfold path_action. cbn [negb]. fold p. destruct (p_exists fs p) eqn:E.
  { repeat split; intros; try congruence; try (destruct H; congruence). destruct H as (_ & H & _). congruence. }
  unfold p_exists in E. destruct (fs p) eqn:Ep; [discriminate|]. clear E.
  assert (G : (forallb (fun a => match fs a with Some false => false | _ => true end) (ancestors p) = true) <-> forall q, above q p -> fs q <> Some false).
  { rewrite forallb_forall. split.
    - intros H q Hq. apply above_In in Hq. apply existsb_exists in Hq as (x & Hx & Ex). apply path_eqb_eq in Ex. subst x.
      destruct Hx as [<-|Hx]; [congruence|]. specialize (H q Hx). destruct (fs q) as [[]|]; congruence.
    - intros H q Hq. specialize (H q). destruct (fs q) as [[]|]; try reflexivity. exfalso. apply H; [|reflexivity].
      apply above_In, existsb_exists. exists q. split; [right; exact Hq|apply path_eqb_eq; reflexivity]. }
  unfold mkdir. destruct (forallb _ (ancestors p)) eqn:F; cbn.
  - destruct G as [G _]. specialize (G eq_refl). repeat split; intros; try congruence; eauto.
    destruct H as (_ & _ & q & Hq & Hf). exfalso. exact (G q Hq Hf).
  - assert (N : exists q, above q p /\ fs q = Some false).
    { clear G. apply Bool.not_true_iff_false in F. rewrite forallb_forall in F.
      assert (D : forall l, (forall q, In q l -> above q p) -> (forall q, In q l -> match fs q with Some false => false | _ => true end = true) \/ exists q, above q p /\ fs q = Some false).
      { induction l as [|a l IH]; intros Hl; [left; intros q []|].
        destruct (IH (fun q Hq => Hl q (or_intror Hq))) as [IH'|IH']; [|right; exact IH'].
        destruct (fs a) as [[]|] eqn:Ea; [left| |left]; try (intros q [<-|Hq]; [rewrite Ea; reflexivity|exact (IH' q Hq)]).
        right. exists a. split; [apply Hl; left; reflexivity|exact Ea]. }
      destruct (D (ancestors p)) as [H|H]; [|contradiction|exact H].
      intros q Hq. apply above_In, existsb_exists. exists q. split; [right; exact Hq|apply path_eqb_eq; reflexivity]. }
    split; [split; intros; congruence|]. split; [split; [intros (f & H); discriminate|intros (_ & H); destruct N as (q & H1 & H2); exfalso; exact (H q H1 H2)]|].
    intros x. split; [intros H; injection H as <-; auto|intros (-> & _); reflexivity].
Qed.

Lemma above_trans_app a l n : above (mkPath a (firstn n l)) (mkPath a l).
Proof. split; [reflexivity|]. exists (skipn n l). symmetry. apply firstn_skipn. Qed.
Lemma above_trans p q r : above p q -> above q r -> above p r.
Proof. intros (H1 & x & H2) (H3 & y & H4). split; [congruence|]. exists (x ++ y). rewrite H4, H2, app_assoc. reflexivity. Qed.

Lemma above_dec p q : above p q \/ ~ above p q.
Proof. destruct (existsb (path_eqb p) (q :: ancestors q)) eqn:E; [left; apply above_In|right; apply above_not]; exact E. Qed.

Lemma create_consistent fs target fs' p : consistent fs -> path_action pkg cwd fs true target = Ok (fs', Created p) ->
  consistent fs' /\ (forall q, fs q <> None -> fs' q = fs q).
Proof.
  intros Hc H. apply create_inv in H as (-> & Hn & Hnf & Hin & Hout). set (p := local_data_path cwd target) in *.
  assert (Keep : forall q, fs q <> None -> fs' q = fs q).
  { intros q Hq. destruct (above_dec q p) as [Ha|Ha]; [|apply Hout; exact Ha]. rewrite (Hin q Ha). specialize (Hnf q Ha).
    destruct (fs q) as [[]|]; congruence. }
  split; [|exact Keep]. intros a parts n Hq Hl. destruct (above_dec (mkPath a parts) p) as [Ha|Ha].
  - apply Hin. eapply above_trans; [apply above_trans_app|exact Ha].
  - rewrite (Hout _ Ha) in Hq. specialize (Hc a parts n Hq Hl). rewrite Keep; [exact Hc|congruence].
Qed.

Lemma created_in_use fs target fs' p : path_action pkg cwd fs true target = Ok (fs', Created p) ->
  p_is_dir fs' p = true /\ data_path pkg cwd fs' target = p /\ path_action pkg cwd fs' true target = Ok (fs', Exists p) /\
  path_action pkg cwd fs' false target = Ok (fs', Shown p).
Proof.
  intros H. apply create_inv in H as (-> & Hn & Hnf & Hin & Hout). set (p := local_data_path cwd target) in *.
  assert (E : fs' p = Some true). { apply Hin. split; [reflexivity|]. exists []. rewrite app_nil_r. reflexivity. }
  assert (D : data_path pkg cwd fs' target = p).
  { unfold data_path. change (cwd // t_data // target) with p. unfold p_is_dir. rewrite E. reflexivity. }
  split; [unfold p_is_dir; rewrite E; reflexivity|]. split; [exact D|]. unfold path_action. cbn [negb].
  fold p. unfold p_exists. rewrite E. split; [reflexivity|]. rewrite D. reflexivity.
Qed.

Lemma created_lookup fs target fs' p f q : consistent fs -> path_action pkg cwd fs true target = Ok (fs', Created p) ->
  below_name f -> get_data_file pkg cwd fs f target = Ok q -> get_data_file pkg cwd fs' f target = Ok q.
Proof.
  intros Hc H (Hf1 & Hf2) Hg. destruct (create_consistent _ _ _ _ Hc H) as (_ & Keep). apply create_inv in H as (-> & Hn & Hnf & Hin & Hout).
  set (p := local_data_path cwd target) in *. apply (lookup_ok pkg cwd fs) in Hg. apply (lookup_ok pkg cwd fs').
  change (cwd // t_data // target) with p in *.
  destruct Hg as [(Hd & _)|(_ & Hd & ->)]; [unfold p_is_dir in Hd; rewrite Hn in Hd; discriminate|].
  right. split; [right|split; [|reflexivity]].
  - assert (Hj : p // f = mkPath (p_abs p) (p_parts p ++ p_parts (parse_path f))) by (unfold path_join; rewrite Hf1; reflexivity).
    unfold p_exists. rewrite Hout.
    + destruct (fs (p // f)) eqn:E; [|reflexivity]. exfalso. rewrite Hj in E.
      assert (X : fs (mkPath (p_abs p) (firstn (length (p_parts p)) (p_parts p ++ p_parts (parse_path f)))) = Some true).
      { apply Hc; [congruence|]. rewrite app_length. destruct (p_parts (parse_path f)); [congruence|simpl; lia]. }
      rewrite firstn_app, Nat.sub_diag, firstn_all in X. simpl in X. rewrite app_nil_r in X. destruct p as [pa pl]; cbn [p_abs p_parts] in X. congruence.
    + intros (_ & rest & Hr). rewrite Hj in Hr. cbn [p_parts] in Hr. apply (f_equal (@length text)) in Hr. rewrite !app_length in Hr.
      destruct (p_parts (parse_path f)); [congruence|simpl in Hr; lia].
  - unfold p_exists in *. destruct (fs ((pkg // t_data // target) // f)) eqn:E; [|discriminate]. rewrite Keep, E; [reflexivity|congruence].
Qed.

Lemma shown fs target fs' s : path_action pkg cwd fs false target = Ok (fs', s) -> fs' = fs /\ s = Shown (data_path pkg cwd fs target).
Proof. unfold path_action. simpl. intros H. injection H as <- <-. auto. Qed.
End Create.

(** ** plugins *)
Lemma str_dec a b : String.eqb a b = true <-> a = b. Proof. apply String.eqb_eq. Qed.

Lemma sort_str_strict l : NoDup l -> StronglySorted (fun a b => str_ltb a b = true) (stable_sort str_ltb l).
Proof.
  intros Hn.
  assert (Hs : StronglySorted (fun a b => str_ltb b a = false) (stable_sort str_ltb l)).
  { apply (sort_sorted str_ltb (fun _ => True)).
    - intros x y _ _. apply str_ltb_asym.
    - intros x y z _ _ _. apply str_ltb_trans_false.
    - apply Forall_forall. auto. }
  assert (Hn' : NoDup (stable_sort str_ltb l)) by (eapply Permutation_NoDup; [apply sort_perm|exact Hn]).
  revert Hn'. induction Hs as [|x l' Hs IH Hx]; intros Hn'; constructor; inversion Hn' as [|? ? Hni Hn2]; subst; [auto|].
  rewrite Forall_forall in *. intros y Hy. destruct (str_ltb x y) eqn:E; [reflexivity|]. exfalso. apply Hni.
  rewrite (str_ltb_antisym x y E (Hx y Hy)). exact Hy.
Qed.

Lemma list_commands_spec {C} (commands extra : dict C) :
  StronglySorted (fun a b => str_ltb a b = true) (list_commands commands extra) /\
  (forall n, In n (list_commands commands extra) <-> In n (dkeys commands) \/ In n (dkeys extra)).
Proof.
  unfold list_commands. split.
  - apply sort_str_strict. apply NoDup_dedup, str_dec.
  - intros n. rewrite sort_In, (In_dedup _ str_dec), in_app_iff. unfold click_list. rewrite sort_In. reflexivity.
Qed.

Lemma dget_keys {B} (d : dict B) k : In k (dkeys d) <-> exists v, dget k d = Some v.
Proof.
  unfold dkeys. induction d as [|[k' v] d IH]; simpl; [split; [intros []|intros (? & ?); discriminate]|].
  destruct (String.eqb_spec k k').
  - subst. split; eauto.
  - rewrite <- IH. split; [intros [E|E]; congruence|auto].
Qed.

Lemma dget_dset {B} (d : dict B) k v k' : dget k' (dset k v d) = if String.eqb k' k then Some v else dget k' d.
Proof.
  induction d as [|[k2 v2] d IH]; simpl.
  - destruct (String.eqb k' k); reflexivity.
  - destruct (String.eqb_spec k k2); simpl.
    + subst. destruct (String.eqb_spec k' k2); reflexivity.
    + destruct (String.eqb_spec k' k2).
      * subst. destruct (String.eqb_spec k2 k); [congruence|reflexivity].
      * exact IH.
Qed.

Lemma extra_inv {C} : forall (entries : list (string * res C)) d0 d,
  foldM (fun d e => c <- snd e ;; Ok (dset (fst e) c d)) d0 entries = Ok d ->
  (forall e, In e entries -> exists c, snd e = Ok c) /\
  (forall n c, last_entry entries n c -> dget n d = Some c) /\
  (forall n, ~ In n (map fst entries) -> dget n d = dget n d0).
Proof.
  induction entries as [|[m r] entries IH]; intros d0 d H.
  - injection H as <-. split; [intros e []|]. split; [intros n c (b & a & E & _); destruct b; discriminate|auto].
  - cbn [foldM] in H. apply bind_ok in H as (d1 & H1 & H). apply bind_ok in H1 as (c0 & Hr & H1). cbn [fst snd] in *. injection H1 as <-. subst r.
    destruct (IH _ _ H) as (A1 & A2 & A3). split; [intros e [E|He]; [exists c0; subst e; reflexivity|apply A1; exact He]|]. split.
    + intros n c (b & a & E & Hna). destruct b as [|x b].
      * injection E as -> -> ->. rewrite (A3 n Hna), dget_dset, String.eqb_refl. reflexivity.
      * injection E as _ E. apply A2. exists b, a. auto.
    + intros n Hn. simpl in Hn. rewrite A3 by auto. rewrite dget_dset. destruct (String.eqb_spec n m); [subst; exfalso; auto|reflexivity].
Qed.

Lemma has_last {C} : forall (entries : list (string * res C)) n, (forall e, In e entries -> exists c, snd e = Ok c) ->
  In n (map fst entries) -> exists c, last_entry entries n c.
Proof.
  induction entries as [|[m r] entries IH]; intros n Hok Hin; [destruct Hin|].
  destruct (in_dec string_dec n (map fst entries)) as [Hi|Hi].
  - destruct (IH n) as (c & b & a & E & Hna); [intros e He; apply Hok; right; exact He|exact Hi|].
    exists c, ((m, r) :: b), a. rewrite E. auto.
  - destruct Hin as [E|Hin]; [|contradiction]. simpl in E. subst m. destruct (Hok (n, r) (or_introl eq_refl)) as (c & Hc). simpl in Hc. subst r.
    exists c, [], entries. auto.
Qed.

Lemma extra_keys {C} (entries : list (string * res C)) d : extra_commands entries = Ok d -> forall n, In n (dkeys d) <-> In n (map fst entries).
Proof.
  intros H n. destruct (extra_inv _ _ _ H) as (A1 & A2 & A3). rewrite dget_keys. split.
  - intros (v & Hv). destruct (in_dec string_dec n (map fst entries)) as [Hi|Hi]; [exact Hi|]. rewrite (A3 n Hi) in Hv. discriminate.
  - intros Hi. destruct (has_last _ n A1 Hi) as (c & Hc). eauto.
Qed.

Lemma extra_ok {C} : forall (entries : list (string * res C)) d0, (forall e, In e entries -> exists c, snd e = Ok c) ->
  exists d, foldM (fun d e => c <- snd e ;; Ok (dset (fst e) c d)) d0 entries = Ok d.
Proof.
  induction entries as [|[m r] entries IH]; intros d0 H; [simpl; eauto|].
  destruct (H _ (or_introl eq_refl)) as (c & Hc). simpl in Hc. subst r. cbn [foldM fst snd bind]. apply IH. intros e He. apply H. right. exact He.
Qed.

(** in a consistent file system *)
Lemma join_parts p s : p_abs (parse_path s) = false -> p // s = mkPath (p_abs p) (p_parts p ++ p_parts (parse_path s)).
Proof. intros H. unfold path_join. rewrite H. reflexivity. Qed.

Lemma exists_dir fs p f : consistent fs -> below_name f -> p_exists fs (p // f) = true -> p_is_dir fs p = true.
Proof.
  intros Hc (H1 & H2) H. rewrite (join_parts _ _ H1) in H. unfold p_exists in H.
  assert (E : fs (mkPath (p_abs p) (firstn (length (p_parts p)) (p_parts p ++ p_parts (parse_path f)))) = Some true).
  { apply Hc; [destruct (fs _); [discriminate|discriminate H]|]. rewrite app_length. destruct (p_parts (parse_path f)); [congruence|]. simpl. lia. }
  rewrite firstn_app, Nat.sub_diag, firstn_all in E. simpl in E. rewrite app_nil_r in E.
  unfold p_is_dir. destruct p as [a l]. cbn [p_abs p_parts] in E. rewrite E. reflexivity.
Qed.

Lemma lookup_consistent pkg cwd fs f dir : consistent fs -> below_name f ->
  get_data_file pkg cwd fs f dir =
    if p_exists fs (cwd // txt "data" // dir // f) then Ok (cwd // txt "data" // dir // f)
    else if p_exists fs (pkg // txt "data" // dir // f) then Ok (pkg // txt "data" // dir // f)
    else Err ValueError.
Proof.
  intros Hc Hf. destruct (p_exists fs (cwd // txt "data" // dir // f)) eqn:E.
  - apply lookup_ok. left. split; [eapply exists_dir; eassumption|auto].
  - destruct (p_exists fs (pkg // txt "data" // dir // f)) eqn:E2.
    + apply lookup_ok. right. auto.
    + apply lookup_err. auto.
Qed.

Lemma get_command_spec {C} (truthy : C -> bool) commands entries extra n : extra_commands entries = Ok extra ->
  (forall c, last_entry entries n c -> truthy c = true -> get_command truthy commands extra n = Some c) /\
  (~ In n (map fst entries) -> get_command truthy commands extra n = dget n commands) /\
  (forall c, last_entry entries n c -> truthy c = false -> get_command truthy commands extra n = dget n commands).
Proof.
  intros H. destruct (extra_inv _ _ _ H) as (A1 & A2 & A3). unfold get_command. split; [|split].
  - intros c Hc Ht. rewrite (A2 _ _ Hc), Ht. reflexivity.
  - intros Hn. rewrite (A3 _ Hn). reflexivity.
  - intros c Hc Ht. rewrite (A2 _ _ Hc), Ht. reflexivity.
Qed.

Lemma list_get {C} (truthy : C -> bool) commands (entries : list (string * res C)) extra n :
  (forall c, truthy c = true) -> extra_commands entries = Ok extra ->
  In n (list_commands commands extra) <-> exists c, get_command truthy commands extra n = Some c.
Proof.
  intros Ht H. rewrite (proj2 (list_commands_spec commands extra)), !dget_keys. unfold get_command. split.
  - intros [(c & Hc)|(c & Hc)].
    + destruct (dget n extra) as [c'|]; [rewrite Ht|]; eauto.
    + rewrite Hc, Ht. eauto.
  - intros (c & Hc). destruct (dget n extra) as [c'|]; eauto.
Qed.

Lemma extra_iff {C} (entries : list (string * res C)) :
  (exists extra, extra_commands entries = Ok extra) <-> (forall e, In e entries -> exists c, snd e = Ok c).
Proof. split; [intros (d & H); apply (extra_inv _ _ _ H)|intros H; apply extra_ok; exact H]. Qed.

Lemma list_all {C} (commands : dict C) entries extra : extra_commands entries = Ok extra ->
  StronglySorted (fun a b => str_ltb a b = true) (list_commands commands extra) /\
  (forall n, In n (list_commands commands extra) <-> In n (dkeys commands) \/ In n (map fst entries)).
Proof.
  intros H. destruct (list_commands_spec commands extra) as (H1 & H2). split; [exact H1|]. intros n. rewrite H2, (extra_keys _ _ H). reflexivity.
Qed.
