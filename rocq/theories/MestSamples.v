(** A small concrete kernel: one input, integer data, least squares rounded down. *)
From Coq Require Import QArith Qcanon.
From Verif Require Import Base BaseLemmas Arith MestModel SpecMest WeightModel.
Open Scope nat_scope.

Fixpoint zsum (l : list Z) : Z := match l with [] => 0%Z | x :: l => (x + zsum l)%Z end.
Definition pairwise (f : Z -> Z -> Z) (l m : list Z) : list Z := map (fun p => f (fst p) (snd p)) (combine l m).
Definition weights_of (n : nat) (w : option (list Z)) : list Z := match w with None => repeat 1%Z n | Some w => w end.
Definition num_of (r : option Z) : Z := match r with Some x => x | None => 0%Z end.

Definition k0 : Kern := {|
  kA := QA; kE := Z; kB := Z; kZ := Z; kW := Z; kR := option Z;
  k_wlse := fun e b w =>
    let w := weights_of (length e) w in
    let d := zsum (pairwise Z.mul w (pairwise Z.mul b b)) in
    if (d =? 0)%Z then Err LinAlgError else Ok (zsum (pairwise Z.mul w (pairwise Z.mul b e)) / d)%Z;
  k_resid := fun e b z => map Some (pairwise (fun x y => x - y * z)%Z e b);
  k_wres := fun r w => nofZ QA (zsum (pairwise Z.mul (weights_of (length r) w) (map (fun x => num_of x * num_of x)%Z r)));
  k_nan := None; k_zero := 0%Z; k_one := 1%Z;
  k_small := fun _ w => (w =? 0)%Z |}.

Definition o0 : opts k0 := mkOpts k0 (nofZ QA 1) 100 (nofZ QA 0).

(** weight 0 for residuals above a threshold *)
Definition cut (t : Z) : wfun k0 (list nat) :=
  fun it r e b iv st => (Ok (Some (map (fun x => match x with Some x => if (Z.abs x <=? t)%Z then 1%Z else 0%Z | None => 0%Z end) r)), st ++ [it]).

(** weight objects over this kernel: the scale is the sum of the residuals *)
Definition K0 : WK k0 := mkWK k0 Z
  (fun r => zsum (map (fun x => Z.abs (num_of x)) r))
  (fun _ s r => map (fun x => if (Z.abs (num_of x) <=? s)%Z then 1%Z else 0%Z) r)
  (fun n => nofZ QA (Z.of_nat n))
  (fun _ s r => map (fun x => if (2 * Z.abs (num_of x) <=? s)%Z then 1%Z else 0%Z) r)
  Z Z Z.of_nat
  (fun _ _ b p w => Ok (w, zsum w, 1%Z)).

Lemma sample_exact w z : k_wlse k0 [3; 6; 9]%Z [1; 2; 3]%Z w = Ok z -> neqb (kA k0) (after (k := k0) [3; 6; 9]%Z [1; 2; 3]%Z w z) (nzero (kA k0)) = true.
Proof.
  assert (D : forall d n z, n = (3 * d)%Z -> (if (d =? 0)%Z then Err LinAlgError else Ok (n / d)%Z) = Ok z -> z = 3%Z).
  { intros d n y -> H. destruct (Z.eqb_spec d 0) as [E|E]; [discriminate|]. assert (G : (3 * d / d)%Z = y) by congruence. rewrite <- G. apply Z.div_mul, E. }
  intros H. simpl in H. apply D in H; clear D.
  - subst z. unfold after, k0, k_wres, k_resid. destruct w as [w|]; [|vm_compute; reflexivity].
    assert (E : zsum (pairwise Z.mul (weights_of 3 (Some w)) [0; 0; 0]%Z) = 0%Z).
    { simpl. destruct w as [|w1 [|w2 [|w3 w]]]; unfold pairwise; simpl; rewrite ?Z.mul_0_r; destruct w || reflexivity; reflexivity. }
    change (neqb QA (nofZ QA (zsum (pairwise Z.mul (weights_of 3 (Some w)) [0; 0; 0]%Z))) (nzero QA) = true). rewrite E. vm_compute. reflexivity.
  - destruct w as [w|]; [|reflexivity]. destruct w as [|w1 [|w2 [|w3 w]]]; unfold pairwise; cbn -[Z.mul Z.add]; try lia. destruct w; cbn -[Z.mul Z.add]; lia.
Qed.
