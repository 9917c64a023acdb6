(** Model of schedcat/util/csv.py.  Definitions only.  The rows are what csv.reader
    yields; the strings, strip() and [convert] are arbitrary, and so is the order in
    which a dictionary is iterated. *)
From Coq Require Import List Bool Arith.
From Verif Require Import Base.
Import ListNotations.

(** what load_columns returns or raises (csv.py:24, 33, 43, 49, 58-59).  NoCell:
    IndexError of row[i]; NotConverted: an exception of [convert]; a column that is
    still the initial 0 (csv.py:52) is None. *)
Inductive loaded (K B : Type) :=
| Loaded (columns : list (K * nat)) (by_name : list (K * list B)) (by_idx : list (option (list B)))
| NoHeader | EmptyHeader | BadRowLength | NoCell | NotConverted.
Arguments Loaded {K B}. Arguments NoHeader {K B}. Arguments EmptyHeader {K B}.
Arguments BadRowLength {K B}. Arguments NoCell {K B}. Arguments NotConverted {K B}.

(** d[k] = v for a dictionary (csv.py:31, 55) *)
Fixpoint dict_put {K V} (eqb : K -> K -> bool) (k : K) (v : V) (d : list (K * V)) : list (K * V) :=
  match d with
  | [] => [(k, v)]
  | (k', v') :: r => if eqb k k' then (k', v) :: r else (k', v') :: dict_put eqb k v r
  end.

(** d[k] for a dictionary (csv.py:55-56) *)
Fixpoint dict_get {K V} (eqb : K -> K -> bool) (k : K) (d : list (K * V)) : option V :=
  match d with [] => None | (k', v') :: r => if eqb k k' then Some v' else dict_get eqb k r end.

(** the loop over the labels (csv.py:30-31) *)
Fixpoint label_columns {S K} (eqb : K -> K -> bool) (strip : S -> K) (i : nat) (labels : list S) (d : list (K * nat)) : list (K * nat) :=
  match labels with [] => d | key :: r => label_columns eqb strip (Datatypes.S i) r (dict_put eqb (strip key) i d) end.

(** list(col(i)) (csv.py:46-49) *)
Fixpoint read_column {S B} (convert : S -> option B) (i : nat) (data : list (list S)) : list B + bool :=
  match data with
  | [] => inl []
  | row :: r =>
      match row with
      | [] => read_column convert i r
      | _ =>
          match nth_error row i with
          | None => inr false
          | Some x =>
              match convert x with
              | None => inr true
              | Some b => match read_column convert i r with inl l => inl (b :: l) | inr e => inr e end
              end
          end
      end
  end.

(** l[i] = x (csv.py:56) *)
Fixpoint list_put {A} (i : nat) (x : A) (l : list A) : list A :=
  match l, i with
  | [], _ => []
  | _ :: r, O => x :: r
  | y :: r, Datatypes.S i' => y :: list_put i' x r
  end.

(** the loop over the columns (csv.py:54-56) *)
Fixpoint read_columns {S K B} (eqb : K -> K -> bool) (convert : S -> option B) (data : list (list S)) (col_idx : list (K * nat))
    (keys : list (K * nat)) (by_name : list (K * list B)) (by_idx : list (option (list B))) : loaded K B :=
  match keys with
  | [] => Loaded col_idx by_name by_idx
  | (k, i) :: r =>
      match read_column convert i data with
      | inr false => NoCell
      | inr true => NotConverted
      | inl c => read_columns eqb convert data col_idx r (dict_put eqb k c by_name) (list_put i (Some c) by_idx)
      end
  end.

(** load_columns (csv.py:7-59); [order] is the order of iteration of col_idx *)
Definition load_columns {S K B} (eqb : K -> K -> bool) (strip : S -> K) (convert : S -> option B) (expect_uniform : bool)
    (order : list (K * nat) -> list (K * nat)) (d : list (list S)) : loaded K B :=
  match d with
  | [] => NoHeader
  | [] :: _ => EmptyHeader
  | labels :: data =>
      let col_idx := label_columns eqb strip 0 labels [] in
      let max_idx := length labels - 1 in
      if expect_uniform && existsb (fun row => negb (Nat.eqb (length row) (max_idx + 1))) data then BadRowLength
      else read_columns eqb convert data col_idx (order col_idx) [] (repeat None (max_idx + 1))
  end.
