(** Specification vocabulary for attribute access. *)
From Verif Require Import Base.
Local Open Scope string_scope. Local Open Scope list_scope.

(** the public attributes of every signal set: data and computed properties, methods *)
Definition of_the_class : list string :=
  ["tags"; "signals"; "nb_channels"; "nb_runs"; "sampling_rates"; "sizes"; "intervals"; "starts"; "stops";
   "select_channels"; "select_runs"; "join"; "merge"; "extract_t"; "fourier_coefficients"; "merge_consecutive_runs"].
Definition public (k : string) : Prop := match k with String c _ => c <> "_"%char | EmptyString => True end.
