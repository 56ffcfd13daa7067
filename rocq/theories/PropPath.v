(** Tags from the names of files (C64-C66). *)
From Coq Require Import QArith Qcanon.
From Verif Require Import Base BaseLemmas GlobModel SpecInv PathModel SpecPath PathProofs NormProofs PlaceProofs FormatProofs PathSamples.
Open Scope nat_scope.

(** C64: for a pattern in normal form and templates that use its fields, the names
    that are yielded are, in order, the instances of the pattern, and the tags are
    the templates filled with the values read by the fields. Among several readings
    the one with the shortest pieces, from left to right, is used. *)
Theorem C64_instances : forall names p tpls, regular p -> normal_path (render p) ->
  (forall t, In t tpls -> tregular t) -> (forall t n, In t tpls -> In (TField n) t -> In n (names_of p)) ->
  exists l, tags_from_path names (render p) (map trender tpls) = (l, None) /\ yielded normpath p tpls names l.
Proof. intros names p tpls R N T H. apply tags_from_path_ok; try assumption. apply normal_fixed, N. Qed.
Print Assumptions C64_instances.

(** in particular, a name is yielded exactly when it is an instance *)
Theorem C64_yielded_iff : forall names p tpls l, regular p -> normal_path (render p) ->
  (forall t, In t tpls -> tregular t) -> (forall t n, In t tpls -> In (TField n) t -> In n (names_of p)) ->
  tags_from_path names (render p) (map trender tpls) = (l, None) ->
  forall name, (exists tags, In (name, tags) l) <-> In name names /\ exists pieces, reads p (normpath name) pieces.
Proof.
  intros names p tpls l R N T H E name. destruct (C64_instances names p tpls R N T H) as (l' & E' & Y). rewrite E in E'. injection E' as <-.
  clear E. induction Y as [|x names l Hx Y IH|x names l tags pieces Hx Hm Ht Y IH].
  - split; [intros (t & [])|intros [[] _]].
  - rewrite IH. split; [intros [H1 H2]; split; [right; exact H1|exact H2]|]. intros [[->|H1] H2]; [|auto]. exfalso. destruct H2 as (pc & H2). exact (Hx pc H2).
  - split.
    + intros (t & [G|G]); [injection G as -> _; split; [left; reflexivity|eauto]|]. destruct (proj1 IH (ex_intro _ t G)) as [G1 G2]. split; [right; exact G1|exact G2].
    + intros [[->|H1] H2]; [exists tags; left; reflexivity|]. destruct (proj2 IH (conj H1 H2)) as (t & Hin). exists t. right. exact Hin.
Qed.
Print Assumptions C64_yielded_iff.

(** a template with a field that the pattern lacks is refused *)
Theorem C64_unknown_field : forall names p tpls t n, regular p -> (forall t, In t tpls -> tregular t) ->
  In t tpls -> In (TField n) t -> ~ In n (names_of p) ->
  tags_from_path names (render p) (map trender tpls) = ([], Some ValueError).
Proof. exact tags_from_path_unknown. Qed.
Print Assumptions C64_unknown_field.

(** ValueError, before any name is looked at, for exactly the patterns and templates
    that cannot be used together: a brace that is not doubled, a conversion, a format,
    a field without a name or with a name that starts with another character than a
    letter or '_', a field of a template that the pattern lacks *)
Theorem C64_refused : forall names pattern tpls,
  (snd (tags_from_path names pattern tpls) = Some ValueError <-> ~ acceptable pattern tpls) /\
  (~ acceptable pattern tpls -> fst (tags_from_path names pattern tpls) = []).
Proof. exact refused_iff. Qed.
Print Assumptions C64_refused.

(** the text of a format string determines its items *)
Theorem C64_spelling : forall t t' s, spelled t s -> spelled t' s -> t = t'.
Proof. exact spelled_unique. Qed.
Print Assumptions C64_spelling.

(** [normpath] gives a path in normal form, and leaves such paths alone *)
Theorem C64_normal : forall s, normal_path (normpath s) /\ (normal_path s -> normpath s = s).
Proof. intros s. split; [apply normpath_normal|apply normal_fixed]. Qed.
Print Assumptions C64_normal.

(** ... that leads to the same place; every path leads to one *)
Theorem C64_place : forall s, (exists n p, leads s n p /\ forall n' p', leads s n' p' -> n' = n /\ p' = p) /\ forall n p, leads (normpath s) n p <-> leads s n p.
Proof. intros s. split; [apply leads_one|intros n p; apply normpath_place]. Qed.
Print Assumptions C64_place.
Example C64_place_example :
  leads (list_ascii_of_string "a/.././../b//c") 0 (1, [["c"%char]; ["b"%char]]) /\ normpath (list_ascii_of_string "a/.././../b//c") = list_ascii_of_string "../b/c" /\
  leads (list_ascii_of_string "///../x") 1 (0, [["x"%char]]) /\ normpath (list_ascii_of_string "///../x") = list_ascii_of_string "/x" /\
  leads (list_ascii_of_string "//x") 2 (0, [["x"%char]]) /\ normpath (list_ascii_of_string "//x") = list_ascii_of_string "//x".
Proof.
  split; [apply leads_iff; split; vm_compute; reflexivity|]. split; [vm_compute; reflexivity|].
  split; [apply leads_iff; split; vm_compute; reflexivity|]. split; [vm_compute; reflexivity|].
  split; [apply leads_iff; split; vm_compute; reflexivity|vm_compute; reflexivity].
Qed.

(** an acceptable pattern with a closed bracket that contains a brace *)
Example C64_acceptable : acceptable (list_ascii_of_string "x{{{a[}]}") [list_ascii_of_string "{a[}]:}_"; []].
Proof.
  assert (F : field_text (list_ascii_of_string "a[}]")).
  { apply ft_char; [apply noneb_ok; reflexivity|]. apply (ft_brackets ["}"%char] []); [apply noneb_ok; reflexivity|constructor]. }
  exists (map TLit (list_ascii_of_string "x{") ++ [TField (list_ascii_of_string "a[}]")]), [[TField (list_ascii_of_string "a[}]"); TLit "_"]; []].
  split; [|split; [|split]].
  - apply sp_char; [apply noneb_ok; reflexivity|]. apply sp_brace; [left; reflexivity|].
    apply (sp_field (list_ascii_of_string "a[}]") [] [] ["}"%char]); [exact F|left; reflexivity|constructor].
  - intros n [H|[H|[H|[]]]]; try discriminate. injection H as <-. eexists. eexists. split; [reflexivity|]. cbn. lia.
  - constructor; [|constructor; [constructor|constructor]].
    apply (sp_field (list_ascii_of_string "a[}]") [TLit "_"%char] ["_"%char] [":"%char; "}"%char]); [exact F|right; left; reflexivity|].
    apply sp_char; [apply noneb_ok; reflexivity|constructor].
  - intros t n [<-|[<-|[]]] H; [|destruct H]. destruct H as [H|[H|[]]]; [|discriminate]. injection H as <-. right. right. left. reflexivity.
Qed.

Example C64_example :
  regular path_ats /\ normal_path (render path_ats) /\ tregular tpl_ats /\
  str (render path_ats) = "**/Set?/site{site}/[A-C]{type}/meas*/*_T{channel}_BL*.ats"%string /\
  str (trender tpl_ats) = "site{site}_{channel}{{{type}}}"%string /\
  shown_path (tags_from_path (texts ["x/y/SetA/site2/Bmt/meas-1/077_TEx_BL_1.ats"; "x/../Set1/site10/Atd/./meas//a_TEy_BL_BL.ats"; "r/Set1/site10/Dtd/meas/a_TEy_BL.ats"; "SetA/site1/Am/meas/u_THz_BL"]%string)
    (render path_ats) [trender tpl_ats]) =
  ([("x/y/SetA/site2/Bmt/meas-1/077_TEx_BL_1.ats", ["site2_Ex{mt}"])]%string, None) /\
  (* the double star needs the slash *)
  shown_path (tags_from_path (texts ["u/../v/SetA/site2/Bmt/meas-1/./077_TEx_BL_BL.ats"]%string) (render path_ats) [trender tpl_ats]) =
  ([("u/../v/SetA/site2/Bmt/meas-1/./077_TEx_BL_BL.ats", ["site2_Ex{mt}"])]%string, None) /\
  tags_from_path (texts ["a"]%string) (render path_ats) [trender [tfield "ty"]] = ([], Some ValueError) /\
  (* a set with the characters of a mark *)
  shown_path (tags_from_path (texts ["z"; "f"; "b$"]%string) (list_ascii_of_string "[!$@flag@$]") (texts ["t"]%string)) = ([("z", ["t"])]%string, None) /\
  map (fun p => snd (tags_from_path [] (list_ascii_of_string p) [])) ["a}"; "{"; "{}"; "{a"; "{1a}"; "{a!r}"; "{a:d}"; "{a[}"; "{a{b}}"; "{a:}"; "{a[}]}"; "{{"]%string =
  repeat (Some ValueError) 9 ++ [None; None; None].
Proof.
  split; [apply regularb_ok; vm_compute; reflexivity|].
  split; [replace (render path_ats) with (normpath (render path_ats)) by (vm_compute; reflexivity); apply normpath_normal|].
  split; [apply tregularb_ok; vm_compute; reflexivity|]. vm_compute. repeat split; reflexivity.
Qed.

(** C65: when the fields are delimited by other characters and there is no wildcard,
    a name can be read in one way only: the values it was made from are found again. *)
Theorem C65_unambiguous : forall p, delimited p -> forall s a b, reads p s a -> reads p s b -> a = b.
Proof. exact delimited_unique. Qed.
Print Assumptions C65_unambiguous.

Theorem C65_values_found : forall p tpls pieces name, delimited p -> normal_path (render p) ->
  (forall t, In t tpls -> tregular t) -> (forall t n, In t tpls -> In (TField n) t -> In n (names_of p)) ->
  normal_path name -> reads p name pieces ->
  exists tags, tags_from_path [name] (render p) (map trender tpls) = ([(name, tags)], None) /\
    Forall2 (fun t s => filled t (values_of p pieces) s) tpls tags.
Proof.
  intros p tpls pieces name D N T H Nn Hr. destruct (C64_instances [name] p tpls (delimited_regular p D) N T H) as (l & E & Y).
  inversion Y as [|? ? ? Hn Y'|? ? ? tags ps Hp Hm Ht Y']; subst.
  - exfalso. apply (Hn pieces). rewrite normal_fixed by exact Nn. exact Hr.
  - inversion Y'; subst. exists tags. split; [exact E|]. rewrite normal_fixed in Hp by exact Nn. rewrite (delimited_unique p D _ _ _ Hr Hp). exact Ht.
Qed.
Print Assumptions C65_values_found.

Definition path_ab : list item := lits "rep/" ++ field "a" :: lits "/" ++ field "x" :: lits ".txt".
Example C65_example :
  delimited path_ab /\ normal_path (render path_ab) /\
  reads path_ab (list_ascii_of_string "rep/A/X.txt") (texts ["r"; "e"; "p"; "/"; "A"; "/"; "X"; "."; "t"; "x"; "t"]%string) /\
  shown_path (tags_from_path (texts ["rep/A/X.txt"; "rep/B/Y.txt"; "rep/B/C/Y.txt"]%string) (render path_ab) [trender [tfield "a"; TLit "_"; tfield "x"]]) =
  ([("rep/A/X.txt", ["A_X"]); ("rep/B/Y.txt", ["B_Y"])]%string, None) /\
  (* fields that touch are ambiguous: the first one takes one character *)
  shown_path (tags_from_path (texts ["abc"]%string) (render [field "a"; field "x"]) [trender [tfield "a"; TLit "_"; tfield "x"]]) = ([("abc", ["a_bc"])]%string, None).
Proof.
  split.
  { assert (Hp : forall c, noneb ["*"; "?"; "["; "{"; "}"]%char c = true -> plain c) by (intros c H; apply noneb_ok, H).
    simpl. repeat match goal with |- _ /\ _ => split end; try exact I; try (apply Hp; vm_compute; reflexivity); try (apply identb_ok; vm_compute; reflexivity); notword. }
  split; [replace (render path_ab) with (normpath (render path_ab)) by (vm_compute; reflexivity); apply normpath_normal|].
  split; [|vm_compute; split; reflexivity]. split; [|vm_compute; reflexivity].
  assert (W : forall l, forallb is_word l = true -> Forall word l) by (intros l H; rewrite Forall_forall; rewrite forallb_forall in H; intros c Hc; apply word_spec, H, Hc).
  cbn [path_ab lits map app texts]. repeat (apply Forall2_cons; [first [reflexivity | split; [discriminate|apply W; vm_compute; reflexivity]]|]). constructor.
Qed.

(** C66: a field used twice may stand for two texts, the last one is used; a
    pattern that shrinks when it is normalised shifts its fields; doubled braces in
    a pattern act as a field without a name; a bracket before a field raises. *)
Theorem C66_repeated_field : forall p tpls n a b, delimited p ->
  p = lits "x/" ++ IField n :: lits "/" ++ [IField n] -> tpls = [[TField n]] ->
  word a -> word b ->
  tags_from_path [list_ascii_of_string "x/" ++ [a] ++ list_ascii_of_string "/" ++ [b]] (render p) (map trender tpls) =
    ([(list_ascii_of_string "x/" ++ [a] ++ list_ascii_of_string "/" ++ [b], [[b]])], None).
Proof.
  intros p tpls n a b D Hp -> Ha Hb. assert (I : ident n) by (subst p; apply D).
  assert (NW : forall c, word c -> c <> "/"%char /\ c <> "."%char).
  { intros c Hc. split; intros ->; revert Hc; notword. }
  assert (Nid : good n).
  { destruct I as (c & l & -> & F & _). split; [discriminate|]. inversion F as [|? ? Hc Hl]; subst. split; [intros [= -> _]; revert Hc; notword|].
    intros Hin. rewrite Forall_forall in F. specialize (F _ Hin). revert F. notword. }
  assert (NB : forall m, ~ In "/"%char m -> normal_path ("x"%char :: "/"%char :: ("{"%char :: n ++ ["}"%char]) ++ "/"%char :: "{"%char :: n ++ ["}"%char])).
  { intros _ _. right. exists 0, [["x"%char]; "{"%char :: n ++ ["}"%char]; "{"%char :: n ++ ["}"%char]]. split; [lia|]. split; [simpl; rewrite app_nil_r; reflexivity|].
    split; [|split; [|lia]].
    - assert (G : good ("{"%char :: n ++ ["}"%char])).
      { split; [discriminate|]. split; [intros G; injection G; discriminate|]. intros [G|G]; [discriminate|]. apply in_app_or in G as [G|[G|[]]]; [|discriminate]. apply Nid, G. }
      intros c [<-|[<-|[<-|[]]]]; [|exact G|exact G]. split; [discriminate|]. split; [discriminate|]. intros [H|[]]. discriminate.
    - intros _. split; [discriminate|]. exists 0. eexists. split; [reflexivity|]. intros [H|[H|[H|[]]]]; discriminate. }
  assert (Er : render p = "x"%char :: "/"%char :: ("{"%char :: n ++ ["}"%char]) ++ "/"%char :: "{"%char :: n ++ ["}"%char]).
  { subst p. unfold render. simpl. rewrite app_nil_r. reflexivity. }
  destruct (C65_values_found p [[TField n]] (texts ["x"; "/"]%string ++ [[a]] ++ texts ["/"]%string ++ [[b]]) (list_ascii_of_string "x/" ++ [a] ++ list_ascii_of_string "/" ++ [b]))
    as (tags & E & F).
  - exact D.
  - rewrite Er. apply (NB []). intros [].
  - intros t [<-|[]] m [G|[]]. injection G as <-. exact I.
  - intros t m [<-|[]] [G|[]]. injection G as <-. subst p. simpl. auto.
  - right. exists 0, [["x"%char]; [a]; [b]]. split; [lia|]. split; [reflexivity|].
    assert (G : forall c, word c -> good [c]).
    { intros c Hc. destruct (NW c Hc). split; [discriminate|]. split; [intros [= ->]; congruence|]. intros [G|[]]. congruence. }
    split; [|split; [|lia]].
    + intros c [<-|[<-|[<-|[]]]]; [|apply G, Ha|apply G, Hb]. split; [discriminate|]. split; [discriminate|]. intros [H|[]]. discriminate.
    + intros _. split; [discriminate|]. exists 0. eexists. split; [reflexivity|]. intros [H|[H|[H|[]]]]; discriminate.
  - subst p. split; [|reflexivity]. cbn [lits map app texts]. repeat (apply Forall2_cons; [first [reflexivity | split; [discriminate|constructor; [assumption|constructor]]]|]). constructor.
  - rewrite E. f_equal. f_equal. f_equal. inversion F as [|? x ? ? (ss & F1 & <-) F2]; subst. inversion F2; subst. inversion F1 as [|? y ? ? Hy F3]; subst. inversion F3; subst.
    simpl. rewrite app_nil_r. f_equal. destruct Hy as (l1 & l2 & El & Hl2). unfold values_of in El. simpl in El.
    destruct l1 as [|u [|v [|w l1]]]; simpl in El; try discriminate.
    + injection El as _ <-. exfalso. apply (Hl2 [b]). left. reflexivity.
    + injection El as _ <- _. reflexivity.
Qed.
Print Assumptions C66_repeated_field.

Theorem C66_normalised_away :
  shown_path (tags_from_path (texts ["x/v.txt"]%string) (list_ascii_of_string "x/{a}/../{b}.txt") (texts ["{a}"]%string)) = ([("x/v.txt", ["v"])]%string, None) /\
  shown_path (tags_from_path (texts ["x/v.txt"]%string) (list_ascii_of_string "x/{a}/../{b}.txt") (texts ["{b}"]%string)) = ([], Some KeyError).
Proof. vm_compute. split; reflexivity. Qed.
Print Assumptions C66_normalised_away.

Definition brace_nl : text := list_ascii_of_string "{a" ++ ascii_of_nat 10 :: list_ascii_of_string "b}".
Theorem C66_braces_and_brackets :
  shown_path (tags_from_path (texts ["xyz}"; "{a}"]%string) (list_ascii_of_string "{{a}}") (texts ["t"]%string)) = ([("xyz}", ["t"])]%string, None) /\
  shown_path (tags_from_path (texts ["[v"]%string) (list_ascii_of_string "[{a}") (texts ["{a}"]%string)) = ([], Some OtherException) /\
  (* a newline between the braces: no field *)
  tags_from_path [brace_nl] brace_nl (texts ["t"]%string) = ([(brace_nl, texts ["t"]%string)], None) /\
  tags_from_path [brace_nl] brace_nl [brace_nl] = ([], Some KeyError) /\
  (* the question mark and the sets match slashes *)
  shown_path (tags_from_path (texts ["a/b"]%string) (list_ascii_of_string "{u}?{v}") (texts ["{u}{v}"]%string)) = ([("a/b", ["ab"])]%string, None) /\
  (* a wildcard can leave a part of the text of the field to the star *)
  shown_path (tags_from_path (texts ["abc.txt"]%string) (list_ascii_of_string "{u}*.txt") (texts ["{u}"]%string)) = ([("abc.txt", ["a"])]%string, None).
Proof. vm_compute. repeat split; reflexivity. Qed.
Print Assumptions C66_braces_and_brackets.

Example C66_example :
  delimited (lits "x/" ++ IField ["n"%char] :: lits "/" ++ [IField ["n"%char]]) /\ word "a" /\ word "b" /\
  shown_path (tags_from_path (texts ["x/a/b"]%string) (list_ascii_of_string "x/{n}/{n}") (texts ["{n}"]%string)) = ([("x/a/b", ["b"])]%string, None).
Proof.
  split.
  { assert (Hp : forall c, noneb ["*"; "?"; "["; "{"; "}"]%char c = true -> plain c) by (intros c H; apply noneb_ok, H).
    simpl. repeat match goal with |- _ /\ _ => split end; try exact I; try (apply Hp; vm_compute; reflexivity); try (apply identb_ok; vm_compute; reflexivity); notword. }
  split; [apply word_spec; reflexivity|]. split; [apply word_spec; reflexivity|]. vm_compute. reflexivity.
Qed.
