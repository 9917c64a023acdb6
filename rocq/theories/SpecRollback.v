(** Independent specification of transactional bin packing.  A bin is seen as
    its capacity and its items. *)
From Coq Require Import QArith List.
From Verif Require Import SpecBinpack.
Import ListNotations.
Open Scope Q_scope.

Section Spec.
  Context {A K : Type}.
  Variable size : A -> Q.
  (** what identifies an item whatever its current size *)
  Variable ident : A -> K.

  Definition view : Type := (Q * list A)%type.

  (** Every bin is within its capacity. *)
  Definition in_capacity (v : list view) : Prop := Forall (fun b => load size (snd b) <= fst b) v.

  (** [v'] is [v] with one more item, the one identified by [k], at the end of
      bin [i]; the bin is within its capacity.  Items already in that bin may
      have changed size.  All other bins are untouched. *)
  Definition added_at (i : nat) (k : K) (v v' : list view) : Prop :=
    exists pre cap old new post, length pre = i /\ v = pre ++ (cap, old) :: post /\ v' = pre ++ (cap, new) :: post /\
      map ident new = map ident old ++ [k] /\ load size new <= cap.
  Definition added (k : K) (v v' : list view) : Prop := exists i, added_at i k v v'.
End Spec.

(** A global constraint that taking items out of bins does not violate. *)
Definition downward {A} (G : list (list A) -> bool) : Prop :=
  forall u v, Forall2 (fun b a => exists removed, a = b ++ removed) v u -> G u = true -> G v = true.
