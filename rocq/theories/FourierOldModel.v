(** Model of the older functions of src/razorback/fourier_transform.py:135-194:
    [time_to_freq_old], [sliding_window], [ft]. The numeric kernels are parameters:
    - [wave freq fs n] is [exp(-1j*2*pi*freq/fs*n)];
    - [cmul], [cdot] as in FourierModel.v;
    - [scale N z] is [z / N * 2]. *)
From Verif Require Import Base Arith FourierModel.

(** fourier_transform.py:155-177 [sliding_window]: entry [j] of row [i] is entry
    [i*shift+j] of the array. Simplifications: contiguous arrays (the strides
    are computed from the item size); non-negative shifts. *)
Definition sliding_window {V} (arr : list V) (nb size shift : Z) : res (list (list V)) :=
  _ <- check ((nb - 1) * shift + size <=? Z.of_nat (length arr))%Z AssertionError ;;
  if ((nb <? 0) || (size <? 0))%Z then Err ValueError
  else Ok (map (fun i => firstn (Z.to_nat size) (skipn (i * Z.to_nat shift) arr)) (seq 0 (Z.to_nat nb))).

Section Old.
Context {A : Arith} {V C : Type}.
Variables (wave : num A -> num A -> nat -> C) (cmul : C -> C -> C) (cdot : list C -> list V -> C) (scale : nat -> C -> C).

(** fourier_transform.py:180-194 [ft] of one signal. Simplification: a window of
    length 1 is not broadcast. *)
Definition ft (y : list V) (freq sampling_freq : num A) (window : option (list C)) : res C :=
  let N := length y in
  let x := map (wave freq sampling_freq) (seq 0 N) in
  x <- match window with
       | None => Ok x
       | Some w => _ <- check (length w =? N) ValueError ;; Ok (map (fun p => cmul (fst p) (snd p)) (combine x w))
       end ;;
  Ok (scale N (cdot x y)).

(** fourier_transform.py:135-152 [time_to_freq_old]; the transform of the
    transposed array of windows is taken window by window *)
Definition time_to_freq_old (data : list (list V)) (sampling_freq freq Nper overlap : num A) (window : window_arg C) :
    res (list (list C) * (nat * nat * nat)) :=
  Ntot <- match dedup Nat.eqb (map (@length V) data) with [n] => Ok n | _ => Err AssertionError end ;;
  _ <- check (negb (neqb A sampling_freq (nzero A))) AssertionError ;;
  let nf := ndiv A freq sampling_freq in
  '(Nw, Lw, shift) <- discrete_window Ntot nf Nper overlap ;;
  w <- eval_window window (Z.to_nat Lw) ;;
  result <- mapM (fun y => rows <- sliding_window y Nw Lw shift ;; mapM (fun r => ft r freq sampling_freq w) rows) data ;;
  Ok (result, (Z.to_nat Nw, Z.to_nat Lw, Z.to_nat shift)).

End Old.
