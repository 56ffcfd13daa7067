(** Model of attribute access on [SignalSet] objects: src/razorback/signalset.py:293-297
    [__getattr__] and the properties of lines 299-311 and 370-403, with the lookup of
    Python ([object.__getattribute__], then [__getattr__] after an AttributeError) and
    what [copy.copy], [copy.deepcopy] and [pickle.loads] do with an object.

    Simplifications: the attributes a user adds to an object are not modelled; the
    values of methods and computed properties are only named. *)
From Verif Require Import Base Arith TagsModel SyncModel SetModel.
Local Open Scope string_scope. Local Open Scope list_scope.

(** the outcome of a computation that may exceed the recursion limit *)
Inductive outcome (X : Type) : Type := Done (r : res X) | RecursionError.
Arguments Done {X}. Arguments RecursionError {X}.

(** properties computed from [self.signals], signalset.py:299-311, 375-398 *)
Definition computed : list string := ["nb_channels"; "nb_runs"; "sampling_rates"; "sizes"; "intervals"; "starts"; "stops"].
(** methods of the class, then what it inherits from [object] *)
Definition methods : list string :=
  ["select_channels"; "select_runs"; "join"; "merge"; "extract_t"; "fourier_coefficients"; "merge_consecutive_runs";
   "_reorder_data"; "__init__"; "__str__"; "__repr__"; "__getattr__"; "__getitem__"; "__or__"; "__ror__"; "__and__"; "__rand__";
   "__class__"; "__delattr__"; "__dict__"; "__dir__"; "__doc__"; "__eq__"; "__format__"; "__ge__"; "__getattribute__";
   "__getstate__"; "__gt__"; "__hash__"; "__init_subclass__"; "__le__"; "__lt__"; "__module__"; "__ne__"; "__new__"; "__reduce__";
   "__reduce_ex__"; "__setattr__"; "__sizeof__"; "__subclasshook__"; "__weakref__"].

Section Attr.
Context {A : Arith} {V K : Type} (kone : K).
Notation sigset := (@sigset A V K).

(** an object whose fields are not set, as [cls.__new__(cls)] makes it, or an object
    that went through [__init__] *)
Inductive inst : Type := Blank | Built (X : sigset).

Inductive pval : Type :=
| PTags (t : tags)                 (* a Tags object *)
| PSignals (l : list (sync A V K)) (* a tuple of SyncSignal *)
| PSet (Y : sigset)                (* a SignalSet *)
| PMember (m : string).            (* the method or computed property [m] *)

(** [object.__getattribute__]; [get] is the lookup made by the properties *)
Definition own (get : string -> outcome pval) (o : inst) (name : string) : outcome pval :=
  if String.eqb name "tags" then get "_tags"             (* signalset.py:400-403 *)
  else if String.eqb name "signals" then get "_signals"  (* signalset.py:370-373 *)
  else if memb String.eqb name computed then
    match get "signals" with Done (Ok _) => Done (Ok (PMember name)) | r => r end
  else if memb String.eqb name methods then Done (Ok (PMember name))
  else match o with
       | Built X => if String.eqb name "_tags" then Done (Ok (PTags (ss_tags X)))
                    else if String.eqb name "_signals" then Done (Ok (PSignals (ss_signals X)))
                    else Done (Err AttributeError)
       | Blank => Done (Err AttributeError)
       end.

(** signalset.py:414-450 [self.select_channels(name)] for a str, as far as it looks
    up [self.tags] and [self.signals] *)
Definition choose (get : string -> outcome pval) (name : string) : outcome pval :=
  match get "tags" with
  | Done (Ok (PTags t)) =>
      if dmem name (t_dict t) then
        match get "signals" with
        | Done (Ok (PSignals l)) =>
            Done (Y <- select_channels kone (mkSet l t) (SelOne (CName name)) ;; Ok (PSet Y))
        | Done (Ok _) => Done (Err TypeError)
        | r => r
        end
      else Done (Err ValueError)
  | Done (Ok _) => Done (Err TypeError)
  | r => r
  end.

(** [o.name]: signalset.py:293-297 when the lookup ends with an AttributeError.
    [limit] is the number of nested lookups allowed *)
Fixpoint attribute (limit : nat) (o : inst) (name : string) : outcome pval :=
  match limit with
  | 0 => RecursionError
  | S limit =>
      let get := attribute limit o in
      match own get o name with
      | Done (Err AttributeError) =>
          match choose get name with
          | Done (Err ValueError) => own get o name
          | r => r
          end
      | r => r
      end
  end.

(** [hasattr(o, name)] *)
Definition has_attribute (limit : nat) (o : inst) (name : string) : outcome bool :=
  match attribute limit o name with
  | Done (Ok _) => Done (Ok true)
  | Done (Err AttributeError) => Done (Ok false)
  | Done (Err e) => Done (Err e)
  | RecursionError => RecursionError
  end.

(** [copy.copy(X)], and the end of [copy.deepcopy] and [pickle.loads]: an object
    without fields is made, then given the fields of [X], by its method
    [__setstate__] if it has one *)
Definition copied (limit : nat) (X : sigset) : outcome sigset :=
  match has_attribute limit Blank "__setstate__" with
  | Done (Ok true) => Done (Err TypeError)
  | Done (Ok false) => Done (Ok X)
  | Done (Err e) => Done (Err e)
  | RecursionError => RecursionError
  end.
End Attr.
Arguments Blank {A V K}. Arguments Built {A V K}. Arguments PTags {A V K}. Arguments PSignals {A V K}. Arguments PSet {A V K}. Arguments PMember {A V K}.
