(** Model of the values returned by the methods that Tags inherits from
    collections.abc.MutableMapping (signalset.py:35-90). The methods are looked up on the
    object (signalset.py:72-79). *)
From Verif Require Import Base TagsModel.

(** a returned object: the tuple of a tag, the very object given as default, or None *)
Inductive tval : Type := VTag (l : list nat) | VArg (v : raw) | VNone.

(** [t.get(k[, default])]: Mapping.get *)
Definition t_get_default (t : tags) (k : string) (default : option raw) : res tval :=
  _ <- method t "get" ;;
  match t_get t k with
  | Ok l => Ok (VTag l)
  | Err KeyError => Ok (match default with Some v => VArg v | None => VNone end)
  | Err e => Err e
  end.

(** [t.pop(k[, default])]: MutableMapping.pop reads the item, then deletes it *)
Definition t_pop (t : tags) (k : string) (default : option raw) : tags * res tval :=
  match method t "pop" with
  | Err e => (t, Err e)
  | Ok _ =>
      match t_get t k with
      | Err KeyError => (t, match default with Some v => Ok (VArg v) | None => Err KeyError end)
      | Err e => (t, Err e)
      | Ok l => match t_del t k with Ok t' => (t', Ok (VTag l)) | Err e => (t, Err e) end
      end
  end.

(** [t.popitem()]: the first key of the iteration, its value, then deletion *)
Definition t_popitem_value (t : tags) : tags * res (string * list nat) :=
  match method t "popitem" with
  | Err e => (t, Err e)
  | Ok _ =>
      match t_dict t with
      | [] => (t, Err KeyError)
      | (k, _) :: _ => match t_get t k with
                       | Err e => (t, Err e)
                       | Ok l => match t_del t k with Ok t' => (t', Ok (k, l)) | Err e => (t, Err e) end
                       end
      end
  end.

(** [t.setdefault(k[, default])]: an assignment when the item is missing, and the
    default itself is returned; without default it is None, which is no index *)
Definition t_setdefault (t : tags) (k : string) (default : option raw) : tags * res tval :=
  match method t "setdefault" with
  | Err e => (t, Err e)
  | Ok _ =>
      match t_get t k with
      | Ok l => (t, Ok (VTag l))
      | Err KeyError =>
          match default with
          | Some v => match t_set t k v with Ok t' => (t', Ok (VArg v)) | Err e => (t, Err e) end
          | None => (t, if head_alpha k then Err ValueError else Err AssertionError)
          end
      | Err e => (t, Err e)
      end
  end.
