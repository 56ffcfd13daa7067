(** C89: search of tags by patterns. [sorder] is the iteration order of a set. *)
From Coq Require Import Sorted Permutation.
From Verif Require Import Base TagsModel SpecTags GlobModel SpecInv TagFilterModel TagFilterProofs.
Local Open Scope string_scope.

(** C89: the names returned are the tags that match one of the patterns, each once. *)
Theorem C89_filter : forall sorder t, (forall l, Permutation (sorder l) l) -> tags_valid t ->
  forall pats, (forall c, ~ reads t "filter" c) ->
  exists l, t_filter sorder t pats = Ok l /\ NoDup l /\
    forall k, In k l <-> (exists c, reads t k c) /\ exists p, In p pats /\ shell_match p k.
Proof. exact filter_valid. Qed.
Print Assumptions C89_filter.

(** C89: the channels of these tags, each once, in increasing order. *)
Theorem C89_filter_get : forall sorder t, (forall l, Permutation (sorder l) l) -> tags_valid t ->
  forall pats, (forall c, ~ reads t "filter" c) -> (forall c, ~ reads t "get" c) ->
  exists l, t_filter_get sorder t pats = Ok l /\ StronglySorted lt l /\
    forall c, In c l <-> exists k cs p, reads t k cs /\ In c cs /\ In p pats /\ shell_match p k.
Proof. exact filter_get_spec. Qed.
Print Assumptions C89_filter_get.

(** C89: a tag named 'filter' breaks both methods ... *)
Theorem C89_tag_filter : forall sorder t pats c, reads t "filter" c ->
  t_filter sorder t pats = Err TypeError /\ t_filter_get sorder t pats = Err TypeError.
Proof. exact filter_shadowed. Qed.
Print Assumptions C89_tag_filter.

(** ... and a tag named 'get' breaks the second one as soon as some tag matches. *)
Theorem C89_tag_get : forall sorder t, (forall l, Permutation (sorder l) l) ->
  forall pats c, reads t "get" c -> (forall c, ~ reads t "filter" c) ->
  t_filter_get sorder t pats = Err TypeError /\ (exists k p cs, reads t k cs /\ In p pats /\ shell_match p k) \/
  t_filter_get sorder t pats = Ok [] /\ ~ (exists k p cs, reads t k cs /\ In p pats /\ shell_match p k).
Proof. exact get_shadowed. Qed.
Print Assumptions C89_tag_get.

Example C89_example :
  exists t, tags_new (Some 5%Z) [("Ex", RInt 3%Z); ("Ey", RInt 1%Z); ("E", RTuple [3; 1]%Z); ("B", RTuple [4; 0]%Z)] = Ok t /\
    (forall c, ~ reads t "filter" c) /\ (forall c, ~ reads t "get" c) /\
    t_filter (@rev string) t ["E?"; "*y"] = Ok ["Ey"; "Ex"] /\
    t_filter_get (@rev string) t ["E*"; "B"] = Ok [0; 1; 3; 4] /\
    t_filter_get (@rev string) t ["z"] = Ok [].
Proof.
  eexists. split; [vm_compute; reflexivity|]. split; [|split; [|vm_compute; auto]];
    intros c H; unfold reads in H; simpl in H; intuition discriminate.
Qed.

Example C89_tag_get_example :
  exists t, tags_new (Some 2%Z) [("get", RInt 0%Z); ("E", RInt 1%Z)] = Ok t /\ reads t "get" [0] /\
    t_filter_get (fun l => l) t ["E"] = Err TypeError /\ t_filter_get (fun l => l) t ["H"] = Ok [].
Proof. eexists. split; [vm_compute; reflexivity|]. split; [left; reflexivity|]. vm_compute. auto. Qed.
