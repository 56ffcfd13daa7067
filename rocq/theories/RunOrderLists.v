(** Arrays of channels with the windows in another order. *)
From Coq Require Import Reals Lra.
From Coquelicot Require Import Complex.
From mathcomp Require Import all_ssreflect all_algebra.
From Verif Require Import CField.
From Verif Require Import Base BaseLemmas Arith TagsModel SyncModel SetModel FourierModel MestModel SpecMest WeightModel RobustModel BiModel
  FullModel SpecFull PrefilterModel UtilsModel WholeModel WholeRemote RunOrderFourier.
Set Implicit Arguments.
Unset Strict Implicit.
Unset Printing Implicit Defensive.
Import GRing.Theory.
Local Open Scope ring_scope.

Lemma list_nth (T : Type) (d : T) l i : List.nth i l d = seq.nth d l i.
Proof. by elim: l i => [|x l IH] [|i] //=. Qed.

Section Big.
Variables (T : Type) (op : T -> T -> T) (z : T).
Hypothesis (CA : forall x y w, op x (op y w) = op y (op x w)).
Lemma big_perm (F : nat -> T) s s' : Permutation s s' -> \big[op/z]_(i <- s) F i = \big[op/z]_(i <- s') F i.
Proof. by elim=> [|x l l' _ IH|x y l|l l' l'' _ -> _ ->] //; rewrite !big_cons ?IH // CA. Qed.
Lemma big_ord_iota (F : nat -> T) n : \big[op/z]_(t < n) F t = \big[op/z]_(t <- iota 0 n) F t.
Proof. by rewrite -(big_mkord xpredT F) /index_iota subn0. Qed.
Lemma big_order (F : nat -> T) p n : Permutation p (List.seq 0 n) -> \big[op/z]_(t < size p) F (seq.nth O p t) = \big[op/z]_(t < n) F t.
Proof.
move=> P; rewrite -(big_mkord xpredT (fun t => F (seq.nth O p t))) -(big_nth O xpredT F) big_ord_iota.
have -> : iota 0 n = List.seq 0 n by elim: n 0%nat {P} => //= n IH m; rewrite IH.
exact: big_perm.
Qed.
End Big.

Section Order.
Variables (n : nat) (p : list nat).
Hypothesis (P : Permutation p (List.seq 0 n)).
Notation tk := (take_at (RtoC 0) p).

Lemma size_p : size p = n.
Proof. by have := Permutation_length P; rewrite List.seq_length. Qed.
Lemma p_in i : List.In i p -> is_true (leq (S i) n).
Proof. move=> H; have /List.in_seq [_ L] := Permutation_in _ P H; exact/ltP. Qed.
Lemma size_tk l : size (tk l) = n.
Proof. by rewrite -[size _]/(List.length _) List.map_length; exact: size_p. Qed.
Lemma nth_tk l t : is_true (leq (S t) n) -> seq.nth 0 (tk l) t = seq.nth 0 l (seq.nth O p t).
Proof. by move=> L; rewrite -[tk l]/(seq.map _ p) (nth_map O) ?size_p // list_nth. Qed.
Lemma tk_reordered l : List.length l = n -> reordered p l (tk l).
Proof.
move=> L; split; first by rewrite List.map_length.
move=> j i E; rewrite List.nth_error_map E /=; symmetry; apply: List.nth_error_nth'.
by rewrite L; apply/ltP; apply: p_in; exact: List.nth_error_In E.
Qed.

Definition tks (ll : list (list C)) := List.map tk ll.
Lemma size_tks ll : size (tks ll) = size ll.
Proof. exact: size_map. Qed.
Lemma all_tks ll : all_of n (tks ll).
Proof. by apply/List.Forall_map/List.Forall_forall => l _; exact: size_tk. Qed.
Lemma columns_tks ll : ll <> [::] -> columns_of (tks ll) = n.
Proof. move=> N; apply: all_columns; [exact: all_tks|by case: ll N]. Qed.
Lemma entry_tks ll i t : is_true (leq (S t) n) -> is_true (leq (S i) (size ll)) -> entry (tks ll) i t = entry ll i (seq.nth O p t).
Proof. by move=> L Li; rewrite /entry /tks -[List.map tk ll]/(seq.map tk ll) (nth_map [::]) // nth_tk. Qed.

Definition col (ll : list (list C)) t := [seq seq.nth 0 line t | line <- ll].
Lemma map_p (T : Type) (g : nat -> T) : [seq g (seq.nth O p t) | t <- iota 0 n] = [seq g i | i <- p].
Proof. by rewrite -[RHS](congr1 (seq.map g) (mkseq_nth O p)) /mkseq -map_comp size_p. Qed.
Lemma rows_tks ll : ll <> [::] -> l_rows (tks ll) = [seq col ll i | i <- p].
Proof.
move=> N; rewrite /l_rows columns_tks // -map_p; apply/eq_in_map => t; rewrite mem_iota /= => L.
rewrite /tks -[List.map tk ll]/(seq.map tk ll) -map_comp /col; apply: eq_map => l /=; exact: nth_tk.
Qed.
Lemma iota_nth_error i : is_true (leq (S i) n) -> nth_error (iota 0 n) i = Some i.
Proof.
suff H m k : is_true (leq (S i) m) -> nth_error (iota k m) i = Some (k + i)%nat by exact: H.
elim: m k i => [|m IH] k [|i] //= L; [by rewrite addn0|by rewrite IH // addSnnS].
Qed.
Lemma rows_reordered ll : all_of n ll -> ll <> [::] -> reordered p (l_rows ll) (l_rows (tks ll)).
Proof.
move=> A N; rewrite rows_tks //; split; first exact: size_map.
move=> j i E; rewrite -[seq.map _ p]/(List.map _ p) List.nth_error_map E /= /l_rows (all_columns A N).
by rewrite -[seq.map _ (iota 0 n)]/(List.map _ (iota 0 n)) List.nth_error_map iota_nth_error //; apply: p_in; exact: List.nth_error_In E.
Qed.

Lemma dot_tks T br : all_of n br -> br <> [::] -> l_dot T (tks br) = tks (l_dot T br).
Proof.
move=> A N; rewrite /l_dot /tks -[List.map tk (seq.map _ T)]/(seq.map tk (seq.map _ T)) -map_comp; apply: eq_map => row /=.
rewrite columns_tks // (all_columns A N) -[RHS]/(seq.map _ p).
pose g t := \sum_(j < size br) seq.nth 0 row j * entry br j t.
transitivity [seq g (seq.nth O p t) | t <- iota 0 n].
  apply/eq_in_map => t; rewrite mem_iota /= => L; rewrite size_tks; apply: eq_bigr => j _; by rewrite entry_tks.
rewrite map_p; apply/eq_in_map => i Hi.
have Li : is_true (leq (S i) n).
  have M q : i \in q -> List.In i q by elim: q => //= x q IH; rewrite seq.in_cons => /orP [/eqP -> |/IH]; [left|right].
  by apply: p_in; exact: M.
by rewrite list_nth (nth_map O) ?size_iota // nth_iota.
Qed.
Lemma dot_all T br : all_of n br -> br <> [::] -> all_of n (l_dot T br).
Proof.
move=> A N; rewrite /l_dot (all_columns A N); elim: T => [|row T IH] /=; constructor=> //.
by rewrite size_map size_iota.
Qed.

(** ** Errors *)
Definition err_of (D m : nat) (g : nat -> nat -> C) (l : list (R * nat)) : res (list (list ext)) :=
  let n := INR m in
  let r := Rdiv (sqrt (Rminus n (INR D))) n in
  let G := (\matrix_(i < D, j < D) g i j) : 'M[C]_D in
  if G \in unitmx then
    Ok [seq [seq xmul (xdiv (xdiv (Fin q.1) (Fin r)) (Fin (Rminus n (INR q.2)))) (Fin (sqrt (Cmod (invmx G j j)))) | j <- fintype.enum 'I_D] | q <- l]
  else Err LinAlgError.
Definition gram_of ll (i j : nat) : C := \sum_(t < columns_of ll) entry ll i t * cjC (entry ll j t).
Lemma l_error_eq outs ins tr ivs : l_error outs ins tr ivs =
  err_of (size ins) (columns_of outs) (gram_of ins) [seq (l_nres ins q.1.1 q.1.2, size q.2) | q <- zip (zip outs tr) ivs].
Proof. by rewrite /l_error /err_of -map_comp. Qed.
Lemma err_of_ext D m g g' l : (forall i j, is_true (leq (S i) D) -> is_true (leq (S j) D) -> g i j = g' i j) -> err_of D m g l = err_of D m g' l.
Proof.
move=> H; rewrite /err_of /=; have -> : (\matrix_(i < D, j < D) g i j) = (\matrix_(i < D, j < D) g' i j) :> 'M[C]_D.
  by apply/matrixP => i j; rewrite !mxE H.
by [].
Qed.
Lemma gram_tks ll i j : all_of n ll -> ll <> [::] -> is_true (leq (S i) (size ll)) -> is_true (leq (S j) (size ll)) ->
  gram_of (tks ll) i j = gram_of ll i j.
Proof.
move=> A N Li Lj; rewrite /gram_of columns_tks // (all_columns A N).
rewrite -(@big_order _ +%R 0 _ (fun t => entry ll i t * cjC (entry ll j t)) _ _ P); last by move=> x y w; rewrite addrCA.
by rewrite size_p; apply: eq_bigr => t _; rewrite !entry_tks.
Qed.
Lemma nres_tks ll line row : size line = n -> l_nres (tks ll) (tk line) row = l_nres ll line row.
Proof.
move=> L; rewrite /l_nres size_tk L; congr sqrt.
pose F t := (seq.nth 0 line t - \sum_(j < size ll) seq.nth 0 row j * entry ll j t).
rewrite -(@big_order _ Rplus R0 _ (fun t => Rmult (Cmod (F t)) (Cmod (F t))) _ _ P); last by move=> x y w; lra.
rewrite size_p; apply: eq_bigr => t _.
have -> : seq.nth 0 (tk line) t - \sum_(j < size (tks ll)) seq.nth 0 row j * entry (tks ll) j t = F (seq.nth O p t); last by [].
rewrite nth_tk // size_tks /F; congr (_ - _); apply: eq_bigr => j _; by rewrite entry_tks.
Qed.
Lemma error_tks outs ins tr ivs ivs' : all_of n outs -> all_of n ins -> outs <> [::] -> ins <> [::] ->
  List.Forall2 (fun iv iv' : list Z => size iv' = size iv) ivs ivs' ->
  l_error (tks outs) (tks ins) tr ivs' = l_error outs ins tr ivs.
Proof.
move=> Ao Ai No Ni F; rewrite !l_error_eq size_tks columns_tks // (all_columns Ao No).
rewrite (@err_of_ext _ _ (gram_of (tks ins)) (gram_of ins)); last by move=> i j Hi Hj; rewrite gram_tks.
congr err_of; clear No Ni; elim: outs Ao tr ivs ivs' F => [|o outs IH] Ao [|t tr] ivs ivs' [|iv iv' jvs jvs' E F'] //=.
have Lo : size o = n by inversion Ao.
have Ao' : all_of n outs by inversion Ao.
by rewrite nres_tks // E (IH Ao' tr jvs jvs').
Qed.
End Order.
