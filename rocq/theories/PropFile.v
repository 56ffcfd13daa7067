(** Binary files that change after the array was made: property C110. *)
From Coq Require Import String.
From Verif Require Import Base PathModel SpecPath ProxyModel SpecProxy BinProofs AtsModel SpecAts AtsProofs FileModel SpecFile FileProofs PropProxy.
Open Scope nat_scope.

(** C110: an array is made of a file that has samples, for as many of them as asked and
    present; it keeps the place that the name stood for. *)
Theorem C110_open :
  forall (V : Type) item enc dec good, @codec V item enc dec good ->
  forall w name path offset size content xs,
  at_place (w_cwd w) name path -> w_at w path = Some (File content) -> stored enc item offset content xs -> Forall good xs ->
  file_open w name offset size item dec =
  if (0 <? Z.min size (Z.of_nat (length xs)))%Z
  then Ok (mkFarray path offset item dec (Z.to_nat (Z.min size (Z.of_nat (length xs)))))
  else Err AssertionError.
Proof. exact @file_opens. Qed.
Print Assumptions C110_open.

(** C110: no array is made where there is no file. *)
Theorem C110_no_file :
  forall (V : Type) w name path offset size item (dec : bytes -> V),
  at_place (w_cwd w) name path ->
  (w_at w path = None -> file_open w name offset size item dec = Err OtherException) /\
  (forall n, w_at w path = Some (Dir n) ->
   file_open w name offset size item dec = Err AssertionError \/ file_open w name offset size item dec = Err ValueError).
Proof. exact @file_not_open. Qed.
Print Assumptions C110_no_file.

(** C110: what is read from an array depends on what is now at the place that the name
    stood for when the array was made, not on the current directory. *)
Theorem C110_place :
  forall (V : Type) (dflt : V) w name path offset size item dec p,
  at_place (w_cwd w) name path -> file_open w name offset size item dec = Ok p ->
  forall w1 w2 index, w_at w1 path = w_at w2 path -> file_get dflt w1 p index = file_get dflt w2 p index.
Proof. exact @file_place. Qed.
Print Assumptions C110_place.

(** C110: whatever the file has become, a slice from [a] to [b] gives the samples that
    are now at these positions if they are all there, and raises otherwise: it never
    gives fewer. *)
Theorem C110_slices :
  forall (V : Type) (dflt : V) item enc dec good, codec item enc dec good ->
  forall w name path offset size p,
  at_place (w_cwd w) name path -> file_open w name offset size item dec = Ok p ->
  forall w' content xs, w_at w' path = Some (File content) -> stored enc item offset content xs -> Forall good xs ->
  forall s a b c,
  (match sl_start s with Some a => bound (Z.of_nat (fa_size p)) a | None => 0 end = a)%Z ->
  (match sl_stop s with Some b => bound (Z.of_nat (fa_size p)) b | None => Z.of_nat (fa_size p) end = b)%Z ->
  match sl_step s with Some c => c | None => 1%Z end = c -> (0 < c)%Z -> (a <= b)%Z ->
  ((b <= Z.of_nat (length xs))%Z \/ a = b ->
   exists r l, file_get dflt w' p [IxSlice s] = Ok r /\ py_slice xs (mkSlice (Some a) (Some b) (Some c)) = Ok l /\ lists r l) /\
  ((Z.of_nat (length xs) < b)%Z -> (a < b)%Z -> file_get dflt w' p [IxSlice s] = Err OtherException).
Proof. exact @file_slices. Qed.
Print Assumptions C110_slices.

(** C110: an integer in the range of the array gives the sample that is now at this
    position, counted from the end that the array had when it was made. *)
Theorem C110_integers :
  forall (V : Type) (dflt : V) item enc dec good, codec item enc dec good ->
  forall w name path offset size p,
  at_place (w_cwd w) name path -> file_open w name offset size item dec = Ok p ->
  forall w' content xs, w_at w' path = Some (File content) -> stored enc item offset content xs -> Forall good xs ->
  forall i, (- Z.of_nat (fa_size p) <= i < Z.of_nat (fa_size p))%Z ->
  match nth_error xs (Z.to_nat (if (i <? 0)%Z then i + Z.of_nat (fa_size p) else i)%Z) with
  | Some x => exists r, file_get dflt w' p [IxInt i] = Ok r /\ scalar r x
  | None => file_get dflt w' p [IxInt i] = Err OtherException
  end.
Proof. exact @file_integers. Qed.
Print Assumptions C110_integers.

(** C110: an integer out of range raises before the file is looked at. *)
Theorem C110_outside :
  forall (V : Type) (dflt : V) w p i,
  (i < - Z.of_nat (fa_size p) \/ Z.of_nat (fa_size p) <= i)%Z -> file_get dflt w p [IxInt i] = Err IndexError.
Proof. exact @file_outside. Qed.
Print Assumptions C110_outside.

(** C110: nothing is read once the file is gone, not even an empty slice. *)
Theorem C110_gone :
  forall (V : Type) (dflt : V) w name path offset size item dec p,
  at_place (w_cwd w) name path -> file_open w name offset size item dec = Ok p ->
  forall w', match w_at w' path with Some (File _) => False | _ => True end ->
  (forall i, (- Z.of_nat (fa_size p) <= i < Z.of_nat (fa_size p))%Z -> file_get dflt w' p [IxInt i] = Err OtherException) /\
  (forall s, match sl_step s with Some c => (0 < c)%Z | None => True end -> file_get dflt w' p [IxSlice s] = Err OtherException).
Proof. exact @file_gone. Qed.
Print Assumptions C110_gone.

(** C110: conversion to an array reads all samples, and converts them when another data
    type is asked for. *)
Theorem C110_array :
  forall (V D : Type) (dflt : V) item enc dec good, codec item enc dec good ->
  forall w name path offset size p,
  at_place (w_cwd w) name path -> file_open w name offset size item dec = Ok p ->
  forall w' content xs, w_at w' path = Some (File content) -> stored enc item offset content xs -> Forall good xs ->
  forall (deqb : D -> D -> bool) astype own dtype, (forall d e, deqb d e = true <-> d = e) ->
  (fa_size p <= length xs -> exists r, file_array dflt deqb astype own w' p dtype = Ok r /\
     lists r (match dtype with
              | Some d => if deqb own d then firstn (fa_size p) xs else map (astype d) (firstn (fa_size p) xs)
              | None => firstn (fa_size p) xs
              end)) /\
  (length xs < fa_size p -> file_array dflt deqb astype own w' p dtype = Err OtherException).
Proof. exact @file_whole. Qed.
Print Assumptions C110_array.

(** the file of five samples is at /d/x, then loses the last two *)
Definition dx : text := txt "/d/x".
Definition now5 : world := mkWorld (txt "/d") (fun s => if String.eqb (string_of_list_ascii s) "/d/x" then Some (File file5) else None).
Definition later : world := mkWorld (txt "/") (fun s => if String.eqb (string_of_list_ascii s) "/d/x" then Some (File (firstn 16 file5)) else None).
Definition opened (get : farray -> res (nd Z)) : res (list nat * list Z) :=
  p <- file_open now5 (txt "x") 3 9 4 le_signed ;;
  r <- get p ;;
  Ok (nd_shape r, map (nd_get r) (match nd_shape r with [] => [[]] | [n] => map (fun i => [i]) (seq 0 n) | _ => [] end)).
Example C110_example :
  at_place (w_cwd now5) (txt "x") dx /\
  w_at later dx = Some (File (firstn 16 file5)) /\ stored (le_bytes 4) 4 3 (firstn 16 file5) [7; -1; 300]%Z /\
  opened (fun p => file_get 0%Z now5 p [sl None None None]) = Ok ([5], raw5) /\
  opened (fun p => file_get 0%Z later p [sl (Some 1%Z) (Some (-2)%Z) None]) = Ok ([2], [-1; 300]%Z) /\
  opened (fun p => file_get 0%Z later p [sl None None None]) = Err OtherException /\
  opened (fun p => file_get 0%Z later p [IxInt (-3)]) = Ok ([], [300]%Z) /\
  opened (fun p => file_get 0%Z later p [IxInt (-1)]) = Err OtherException /\
  opened (fun p => file_array 0%Z Nat.eqb (fun _ x => (2 * x)%Z) 0 now5 p (Some 1)) = Ok ([5], map (Z.mul 2) raw5) /\
  file_open later (txt "x") 3 9 4 le_signed = Err OtherException.
Proof.
  split.
  { split.
    - right. exists 1, [["d"%char]; ["x"%char]]. split; [lia|]. split; [reflexivity|]. split; [|split].
      + intros c [<-|[<-|[]]]; (split; [discriminate|]; split; [discriminate|]; intros [H|[]]; discriminate H).
      + discriminate.
      + intros _ [H|[H|[]]]; discriminate H.
    - right. split; [discriminate|]. split; [discriminate|]. right. exists ["/"%char], "d"%char. repeat split. discriminate. }
  split; [reflexivity|].
  split; [exists (le_bytes 3 0), (skipn 15 (firstn 16 file5)); repeat split; simpl; lia|].
  vm_compute. auto 10.
Qed.
