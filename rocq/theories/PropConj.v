(** C103: conjugate data. *)
From Coq Require Import Reals.
From Coquelicot Require Import Complex.
From mathcomp Require Import all_ssreflect all_algebra.
From Verif Require Import CField.
From Verif Require Import Base Arith MestModel WeightModel BiModel FullModel SpecFull ConjProofs FullSamples PropFull.
Import GRing.Theory.
Local Open Scope ring_scope.

(** The other sign convention of the Fourier transform gives conjugate outputs and
    inputs. With the weights of the library, [transfer_function] then raises the same
    exceptions, rejects the same rows and returns the conjugate estimates. *)
Theorem C103_conjugate : forall (q : nat) (o : opts (fullK q)) (outputs : list (list C)) (b : list 'rV[C]_q) ws iv st,
  List.Forall (fun e => List.length e = List.length b) outputs ->
  List.Forall (fun w => match w with Some w => of_library w = true | None => True end) ws ->
  fst (transfer_function (k := fullK q) o (List.map (List.map Cconj) outputs) (List.map (map_mx Cconj) b) (weightings (fullW q) ws) None iv st)
  = match fst (transfer_function (k := fullK q) o outputs b (weightings (fullW q) ws) None iv st) with
    | Ok rs => Ok (List.map (fun r => (option_map (map_mx Cconj) (fst r), snd r)) rs)
    | Err x => Err x
    end.
Proof. intros q o outputs b ws iv st F W. exact (full_conj o iv st F W). Qed.
Print Assumptions C103_conjugate.

(** a run with complex data (C96) that weights down two rows, and the conjugate one *)
Example C103_example :
  let run e b := fst (transfer_function (k := fullK 1) fullO [e] b
    (weightings (fullW 1) [None; Some (Huber (k := fullK 1) (Rdiv 3 2))]) None IvNone (fresh (fullW 1))) in
  let c := Cmult (RtoC 2) Ci in let M : 'M[C]_1 := (RtoC 2)%:M in
  let e := changed_output c fourB three fourE in let b := List.map (changed_row M) fourB in
  let z := invmx M *m (c *: 0 + three) in
  run e b = Ok [(Some z, [])] /\
  run (List.map Cconj e) (List.map (map_mx Cconj) b) = Ok [(Some (map_mx Cconj z), [])].
Proof.
  intros run c M e b z.
  assert (H : run e b = Ok [(Some z, [])]) by exact (proj2 (proj2 (proj2 C96_example))).
  split; [exact H|].
  pose proof (C103_conjugate 1 fullO [e] b [None; Some (Huber (k := fullK 1) (Rdiv 3 2))] IvNone (fresh (fullW 1))) as G.
  unfold run in H. rewrite H in G. apply G; repeat constructor.
Qed.
