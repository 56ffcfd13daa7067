(** Patterns written as texts: reading them back, for the examples. *)
From Coq Require Import QArith Qcanon.
From Verif Require Import Base BaseLemmas GlobModel SpecInv PathModel SpecPath PathProofs.
Open Scope nat_scope.

Definition identb (n : text) : bool := match n with c :: _ => forallb is_word n && is_first c | [] => false end.
Lemma identb_ok n : identb n = true -> ident n.
Proof.
  destruct n as [|c l]; [discriminate|]. unfold identb. intros H. apply andb_true_iff in H as [H1 H2]. exists c, l. split; [reflexivity|]. split.
  - rewrite Forall_forall. rewrite forallb_forall in H1. intros x Hx. apply word_spec, H1, Hx.
  - unfold is_first, between, ascii_leb, is in H2. rewrite !orb_true_iff, !andb_true_iff, !N.leb_le in H2. unfold nat_of_ascii.
    change (N_of_ascii "a") with 97%N in H2. change (N_of_ascii "z") with 122%N in H2. change (N_of_ascii "A") with 65%N in H2. change (N_of_ascii "Z") with 90%N in H2.
    destruct H2 as [[H2|H2]|H2]; [|lia|lia]. destruct (Ascii.eqb_spec c "_") as [->|]; [cbn; lia|discriminate].
Qed.

Definition noneb (l : text) (c : ascii) : bool := negb (existsb (is c) l).
Lemma noneb_ok l c : noneb l c = true -> ~ In c l.
Proof. unfold noneb. intros H Hin. apply negb_true_iff, not_true_iff_false in H. apply H, existsb_exists. exists c. split; [exact Hin|apply Ascii.eqb_refl]. Qed.

Fixpoint regularb (p : list item) : bool :=
  match p with
  | [] => true
  | i :: p =>
      match i with
      | ILit c => noneb ["*"; "?"; "["; "{"; "}"]%char c
      | ISet neg body => match body with [] => false | _ => forallb (noneb ["!"; "*"; "["; "]"; "{"; "}"]%char) body && (neg || negb (existsb (teqb body) reserved)) end
      | IStar => match p with IStar :: _ | IDouble :: _ => false | _ => true end
      | IField n => identb n
      | _ => true
      end && regularb p
  end.
Lemma regularb_ok p : regularb p = true -> regular p.
Proof.
  induction p as [|i p IH]; [reflexivity|]. cbn [regularb regular]. intros H. apply andb_true_iff in H as [H1 H2]. split; [|apply IH, H2].
  destruct i as [c| |neg body| | |n]; try exact I.
  - exact (noneb_ok _ _ H1).
  - destruct body as [|x b]; [discriminate|]. apply andb_true_iff in H1 as [H1 H3]. split; [discriminate|]. split.
    { intros -> Hin. apply negb_true_iff, not_true_iff_false in H3. apply H3, existsb_exists. eexists. split; [exact Hin|]. destruct (teqb_spec (x :: b) (x :: b)); congruence. }
    rewrite forallb_forall in H1. intros c Hc. exact (noneb_ok _ _ (H1 c Hc)).
  - destruct p as [|[]]; try discriminate; exact I.
  - apply identb_ok, H1.
Qed.

Definition lits (s : string) : list item := map ILit (list_ascii_of_string s).
Definition field (s : string) : item := IField (list_ascii_of_string s).
Definition tlits (s : string) : list titem := map TLit (list_ascii_of_string s).
Definition tfield (s : string) : titem := TField (list_ascii_of_string s).
Definition str (l : text) : string := string_of_list_ascii l.
Definition texts (l : list string) : list text := map list_ascii_of_string l.
Definition shown_path (r : list (text * list text) * option exn) : list (string * list string) * option exn :=
  (map (fun p => (str (fst p), map str (snd p))) (fst r), snd r).

Definition tregularb (t : list titem) : bool := forallb (fun i => match i with TField n => identb n | TLit _ => true end) t.
Lemma tregularb_ok t : tregularb t = true -> tregular t.
Proof. unfold tregularb. rewrite forallb_forall. intros H n Hn. apply identb_ok. exact (H _ Hn). Qed.

(** '**/Set?/site{site}/[A-C]{type}/meas*/*_T{channel}_BL*.ats' *)
Definition path_ats : list item :=
  IDouble :: lits "/Set" ++ IAny :: lits "/site" ++ field "site" :: lits "/" ++ ISet false (list_ascii_of_string "A-C") :: field "type" :: lits "/meas" ++
  IStar :: lits "/" ++ IStar :: lits "_T" ++ field "channel" :: lits "_BL" ++ IStar :: lits ".ats".
Definition tpl_ats : list titem := tlits "site" ++ tfield "site" :: tlits "_" ++ tfield "channel" :: tlits "{" ++ tfield "type" :: tlits "}".
