(** The texts that represent tags and signal sets: properties C100 and C101. *)
From Coq Require Import QArith Qcanon.
From Verif Require Import Base BaseLemmas Arith TagsModel SpecTags SyncModel SetModel SpecSet ReprModel SpecRepr ReprProofs PercentNames Samples.
Open Scope nat_scope. Local Open Scope string_scope. Local Open Scope list_scope.

(** C100: the text lists the tags, the shorter tuples first, then by name. *)
Theorem C100_text : forall t s, tags_valid t ->
  (tags_repr t = Ok s <-> (forall l, ~ reads t "items" l) /\
   exists n items, size_shown t n /\ Permutation items (t_dict t) /\ StronglySorted listed_before items /\ s = text_of n items).
Proof. exact repr_text. Qed.
Print Assumptions C100_text.

(** C100: a tag named 'items' makes it fail. *)
Theorem C100_fails : forall t e, tags_valid t -> (tags_repr t = Err e <-> e = TypeError /\ exists l, reads t "items" l).
Proof. exact repr_fails. Qed.
Print Assumptions C100_fails.

(** C100: two objects have the same text exactly when they have the same channels and
    the same tags, in any order, as long as no name contains '=' or is 'indices'. *)
Theorem C100_identifies : forall a b ra rb, tags_valid a -> tags_valid b ->
  (forall k l, reads a k l \/ reads b k l -> lacks "=" k /\ k <> "indices") ->
  tags_repr a = Ok ra -> tags_repr b = Ok rb ->
  (ra = rb <-> t_n a = t_n b /\ forall k l, reads a k l <-> reads b k l).
Proof. exact repr_identifies. Qed.
Print Assumptions C100_identifies.

(** C100: without that condition different tags can have the same text. *)
Theorem C100_identifies_refuted : exists a b n d n' d',
  tags_new n d = Ok a /\ tags_new n' d' = Ok b /\ tags_repr a = tags_repr b /\ tags_eqb a b = false.
Proof.
  exists (mkTags 2 [("A=(0,), B", [1])]), (mkTags 2 [("A", [0]); ("B", [1])]), (Some 2%Z), [("A=(0,), B", RInt 1%Z)], (Some 2%Z), [("A", RInt 0%Z); ("B", RInt 1%Z)].
  vm_compute. auto.
Qed.
Print Assumptions C100_identifies_refuted.

Example C100_example :
  tags_repr (mkTags 12 [("H", [2; 11]); ("E", [0; 1]); ("Z", [3])]) = Ok "Tags(12, Z=(3,), E=(0, 1), H=(2, 11))" /\
  tags_repr (mkTags 0 []) = Ok "Tags(0, )" /\
  tags_repr (mkTags 3 [("indices", [0; 1]); ("E", [0])]) = Ok "Tags(2, E=(0,), indices=(0, 1))" /\
  tags_repr (mkTags 3 [("items", [0])]) = Err TypeError /\
  tags_valid (mkTags 12 [("H", [2; 11]); ("E", [0; 1]); ("Z", [3])]) /\
  (forall k l, reads (mkTags 12 [("H", [2; 11]); ("E", [0; 1]); ("Z", [3])]) k l -> lacks "=" k /\ k <> "indices").
Proof.
  split; [reflexivity|]. split; [reflexivity|]. split; [reflexivity|]. split; [reflexivity|]. split.
  - constructor.
    + intros k l [H|[H|[H|[]]]]; injection H as <- _; eexists; eexists; (split; [reflexivity|]); vm_compute; tauto.
    + intros k l [H|[H|[H|[]]]]; injection H as _ <-; discriminate.
    + intros k l c [H|[H|[H|[]]]] Hc; injection H as _ <-; simpl in *; intuition lia.
    + repeat constructor; simpl; intuition discriminate.
  - intros k l [H|[H|[H|[]]]]; injection H as <- _; (split; [intros G; simpl in G; intuition discriminate|discriminate]).
Qed.

(** C101: the text of a signal set lists its tags in their order, each with the literal
    of its name, and its runs, when no name contains a percent sign. *)
Theorem C101_text :
  forall (A : Arith) (V K : Type) (show : num A -> string) (X : @sigset A V K),
  (forall k l, reads (ss_tags X) k l -> printable k) ->
  exists texts, Forall2 tag_text (t_dict (ss_tags X)) texts /\
  set_repr show X = Ok ("SignalSet({" ++ listed texts ++ "}, " ++ listed (map (run_text show) (ss_signals X)) ++ ")")%string.
Proof. exact @set_repr_text. Qed.
Print Assumptions C101_text.

(** C101: the literals are the names between single quotes when no name contains a quote,
    a backslash or a percent sign. *)
Theorem C101_plain_names :
  forall (A : Arith) (V K : Type) (show : num A -> string) (X : @sigset A V K),
  (forall k l, reads (ss_tags X) k l -> tame k) -> set_repr show X = Ok (set_text show X).
Proof. exact @set_repr_plain. Qed.
Print Assumptions C101_plain_names.

(** C101: a percent sign in a name is taken for a directive: the text cannot be made,
    or it shows another name. *)
Definition percent_set (k : string) : xset := set_of [(k, RTuple [0%Z])] [run 1 2 (q 1) (q 0)].
Theorem C101_percent_refuted :
  (exists X, X = percent_set "E%s" /\ reach tt X /\ forall show, set_repr show X = Err TypeError) /\
  (exists X Y, X = percent_set "E%%" /\ Y = percent_set "E%" /\ reach tt X /\ forall show, set_repr show X = Ok (set_text show Y)).
Proof.
  split.
  - eexists. split; [reflexivity|]. split; [|intros show; vm_compute; reflexivity].
    apply set_reach; [vm_compute; reflexivity|]. intros s [<-|[]]. apply run_reach. vm_compute. reflexivity.
  - eexists. eexists. split; [reflexivity|]. split; [reflexivity|]. split; [|intros show; vm_compute; reflexivity].
    apply set_reach; [vm_compute; reflexivity|]. intros s [<-|[]]. apply run_reach. vm_compute. reflexivity.
Qed.
Print Assumptions C101_percent_refuted.

(** C101: there is a text exactly when the percent signs of every name come in pairs; it
    shows the names with one sign for each pair. *)
Theorem C101_percent :
  forall (A : Arith) (V K : Type) (show : num A -> string) (X : @sigset A V K) t,
  (forall k l, reads (ss_tags X) k l -> directives k) ->
  (set_repr show X = Ok t <->
   exists items texts, Forall2 (fun e e' => halved (fst e) (fst e') /\ snd e' = snd e) (t_dict (ss_tags X)) items /\ Forall2 tag_text items texts /\
   t = ("SignalSet({" ++ listed texts ++ "}, " ++ listed (map (run_text show) (ss_signals X)) ++ ")")%string).
Proof. intros A V K show X t _. exact (set_repr_percent show X t). Qed.
Print Assumptions C101_percent.

(** C101: whenever some name contains a percent sign, the text with the right names is
    not what is shown. *)
Theorem C101_percent_wrong :
  forall (A : Arith) (V K : Type) (show : num A -> string) (X : @sigset A V K) texts,
  (forall k l, reads (ss_tags X) k l -> directives k) ->
  (exists k l, reads (ss_tags X) k l /\ ~ lacks "%" k) -> Forall2 tag_text (t_dict (ss_tags X)) texts ->
  set_repr show X <> Ok ("SignalSet({" ++ listed texts ++ "}, " ++ listed (map (run_text show) (ss_signals X)) ++ ")")%string.
Proof.
  intros A V K show X texts _ (k & l & Hr & Hp). apply set_repr_wrong. exists k, l. split; [exact Hr|].
  destruct (in_dec ascii_dec "%"%char (list_ascii_of_string k)) as [H|H]; [exact H|destruct (Hp H)].
Qed.
Print Assumptions C101_percent_wrong.

Example C101_example_percent :
  directives "E%%" /\ directives "50%" /\ halved "E%%" "E%" /\ (forall t, ~ halved "50%" t) /\
  set_repr (fun _ => "1") (percent_set "E%%") = Ok "SignalSet({'E%': (0,)}, SyncSignal([1x2], sampling_rate=1, start=1, calibrations=[...]))".
Proof.
  assert (D : forall s, forallb (fun c => (32 <=? nat_of_ascii c)%nat && (nat_of_ascii c <=? 126)%nat) (list_ascii_of_string s) = true ->
    (forall c, In c (list_ascii_of_string s) -> 32 <= nat_of_ascii c <= 126)).
  { intros s H c Hc. rewrite forallb_forall in H. apply H, andb_true_iff in Hc as [H1 H2]. apply Nat.leb_le in H1, H2. lia. }
  split; [split; [apply D; reflexivity|]|split; [split; [apply D; reflexivity|]|split; [|split]]].
  - intros u c v H. destruct u as [|a [|b [|d u]]]; try discriminate H; inversion H; subst; first [left; reflexivity|destruct u; discriminate].
  - intros [|a [|b [|d u]]] c v H; try discriminate H. destruct u; discriminate H.
  - apply hv_plain; [discriminate|]. apply hv_pair. constructor.
  - intros t H. apply halve_iff in H. discriminate.
  - vm_compute. reflexivity.
Qed.

Definition show_q (x : num QA) : string := if Qc_eq_dec x (Q2Qc 0) then "0" else "1".
Example C101_example :
  set_repr show_q (percent_set "E") = Ok "SignalSet({'E': (0,)}, SyncSignal([1x2], sampling_rate=1, start=0, calibrations=[...]))" /\
  tame "E" /\ (exists k l, reads (ss_tags (percent_set "a'b\")) k l /\ printable k /\ ~ tame k) /\ str_repr "a'b" = String dquote ("a'b" ++ String dquote "") /\ str_repr "a\" = "'a\\'".
Proof.
  split; [vm_compute; reflexivity|]. split; [intros c [<-|[]]; split; [cbn; lia|intros H; vm_compute in H; intuition discriminate]|]. split; [|split; reflexivity].
  exists "a'b\", [0]. split; [vm_compute; auto|]. split.
  - intros c [<-|[<-|[<-|[<-|[]]]]]; split; cbn; lia.
  - intros H. destruct (H "'"%char) as [_ G]; [vm_compute; auto|]. apply G. vm_compute. auto.
Qed.
