(** * The attribute dictionary (schedcat/util/storage.py).

    Names are strings, values are arbitrary.  The base class is Python's
    dict: item access on it is written out here as an association list
    without repeated keys, since the file itself only delegates to it. *)

From Coq Require Import String List Bool.
Import ListNotations.
Open Scope string_scope.
Open Scope list_scope.

(** storage.py:2 (class Storage(dict)): the attributes that the class itself
    has, which Python finds before it calls [__getattr__].  Simplified: the
    public methods of the dict of Python 2; the names with double underscores
    are left out. *)
Definition class_attributes : list string :=
  ["clear"; "copy"; "fromkeys"; "get"; "has_key"; "items"; "iteritems";
   "iterkeys"; "itervalues"; "keys"; "pop"; "popitem"; "setdefault";
   "update"; "values"; "viewitems"; "viewkeys"; "viewvalues"].

(** storage.py:2: whether a name is an attribute of the class. *)
Definition is_class_attribute (k : string) : bool :=
  existsb (String.eqb k) class_attributes.

(** storage.py:2: the contents of the underlying dict. *)
Definition dict (V : Type) := list (string * V).

(** storage.py:25 ([self[key]]): item lookup of the base class; None stands
    for the KeyError. *)
Fixpoint dict_get {V} (d : dict V) (k : string) : option V :=
  match d with
  | [] => None
  | (k', v) :: r => if String.eqb k k' then Some v else dict_get r k
  end.

(** storage.py:30 ([self[key] = value]): item assignment of the base class. *)
Fixpoint dict_set {V} (d : dict V) (k : string) (v : V) : dict V :=
  match d with
  | [] => [(k, v)]
  | (k', v') :: r =>
      if String.eqb k k' then (k, v) :: r else (k', v') :: dict_set r k v
  end.

(** storage.py:34 ([del self[key]]): item deletion of the base class; None
    stands for the KeyError. *)
Fixpoint dict_del {V} (d : dict V) (k : string) : option (dict V) :=
  match d with
  | [] => None
  | (k', v') :: r =>
      if String.eqb k k' then Some r
      else match dict_del r k with
           | Some r' => Some ((k', v') :: r')
           | None => None
           end
  end.

(** storage.py:23-36: what a caller can do with an object: read, write and
    delete by attribute (the three methods) or by item (the base class). *)
Inductive op (V : Type) :=
| GetAttr (k : string) | SetAttr (k : string) (v : V) | DelAttr (k : string)
| GetItem (k : string) | SetItem (k : string) (v : V) | DelItem (k : string).
Arguments GetAttr {V}. Arguments SetAttr {V}. Arguments DelAttr {V}.
Arguments GetItem {V}. Arguments SetItem {V}. Arguments DelItem {V}.

(** storage.py:23-36: what the caller sees. [Method] is a bound method of the
    class, the two errors carry the name (in the code the AttributeError carries the KeyError that carries it). *)
Inductive outcome (V : Type) :=
| Value (v : V) | Method (k : string) | Done
| AttributeError (k : string) | KeyError (k : string).
Arguments Value {V}. Arguments Method {V}. Arguments Done {V}.
Arguments AttributeError {V}. Arguments KeyError {V}.

(** storage.py:23-27 ([__getattr__]): called by Python only if the class has
    no such attribute. *)
Definition getattr {V} (d : dict V) (k : string) : outcome V :=
  if is_class_attribute k then Method k
  else match dict_get d k with
       | Some v => Value v
       | None => AttributeError k
       end.

(** storage.py:32-36 ([__delattr__]); it overrides Python's own deletion, so
    that the class attributes play no part. *)
Definition delattr {V} (d : dict V) (k : string) : dict V * outcome V :=
  match dict_del d k with
  | Some d' => (d', Done)
  | None => (d, AttributeError k)
  end.

(** storage.py:23-36: one operation. *)
Definition storage_step {V} (d : dict V) (o : op V) : dict V * outcome V :=
  match o with
  | GetAttr k => (d, getattr d k)
  | SetAttr k v => (dict_set d k v, Done)
  | DelAttr k => delattr d k
  | GetItem k =>
      (d, match dict_get d k with Some v => Value v | None => KeyError k end)
  | SetItem k v => (dict_set d k v, Done)
  | DelItem k =>
      match dict_del d k with
      | Some d' => (d', Done)
      | None => (d, KeyError k)
      end
  end.

(** storage.py:23-36: a history of operations on one object, with what the
    caller sees of each. *)
Fixpoint storage_run {V} (d : dict V) (os : list (op V)) : list (outcome V) :=
  match os with
  | [] => []
  | o :: r => let '(d', x) := storage_step d o in x :: storage_run d' r
  end.
