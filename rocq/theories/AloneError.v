(** The errors of several outputs are those of each of them. *)
From Coq Require Import Reals.
From Coquelicot Require Import Complex.
From mathcomp Require Import all_ssreflect all_algebra.
From Verif Require Import WlseModel CField.
From Verif Require Import Base MestModel RobustModel BiModel UtilsModel WholeModel.
Set Implicit Arguments.
Unset Strict Implicit.
Unset Printing Implicit Defensive.
Local Open Scope ring_scope.

Lemma zip_combine (T T' : Type) (l : list T) (l' : list T') : zip l l' = combine l l'.
Proof. by elim: l l' => [|x l IH] [|y l'] //=; rewrite IH. Qed.

Definition regular (be : list (list C)) : bool := l_gram be \in unitmx.
Definition error_row (n : nat) (be : list (list C)) (line row : list C) (m : list Z) : list ext :=
  let n := INR n in
  let r := Rdiv (sqrt (Rminus n (INR (size be)))) n in
  [seq xmul (xdiv (xdiv (Fin (l_nres be line row)) (Fin r)) (Fin (Rminus n (INR (size m)))))
            (Fin (sqrt (Cmod (invmx (l_gram be) j j)))) | j <- fintype.enum 'I_(size be)].
Lemma l_error_each n outs be z ms : outs <> [::] -> List.Forall (fun e => List.length e = n) outs ->
  l_error outs be z ms = (if regular be then Ok (List.map (fun p => error_row n be (fst (fst p)) (snd (fst p)) (snd p)) (combine (combine outs z) ms)) else Err LinAlgError).
Proof.
move=> Ho F; rewrite /l_error /regular !zip_combine.
have -> : columns_of outs = n by case: outs Ho F => //= e outs _ F; inversion F.
by [].
Qed.
