(** Specification for nested critical sections, group locks and connected
    components.  It speaks about the shape of the critical sections only. *)
From Coq Require Import ZArith List Bool Arith Relations Lia.
From Verif Require Import ModelResources.
Import ListNotations.
Local Open Scope nat_scope.

(** a section is directly nested in another one *)
Inductive child : csec -> csec -> Prop :=
| child_intro : forall r l n x, In x n -> child x (CS r l n).

(** a section occurs somewhere at or below another one *)
Inductive within : csec -> csec -> Prop :=
| within_refl : forall c, within c c
| within_step : forall x y c, within x y -> child y c -> within x c.

(** a section occurs in the critical sections of a task *)
Definition occurs (c : csec) (f : list csec) : Prop := exists o, In o f /\ within c o.

(** some task of the set requests [r] somewhere *)
Definition requested (tasks : list (list csec)) (r : nat) : Prop :=
  exists f c, In f tasks /\ occurs c f /\ cs_res c = r.

(** some task requests [r] directly inside a section of [o] *)
Definition requested_inside (tasks : list (list csec)) (o r : nat) : Prop :=
  exists f c x, In f tasks /\ occurs c f /\ child x c /\ cs_res c = o /\ cs_res x = r.

(** resources that are linked by a chain of nestings *)
Definition same_group (tasks : list (list csec)) : nat -> nat -> Prop :=
  clos_refl_sym_trans nat (requested_inside tasks).

(** a path of positions leads from a forest to a section; [held] are the
    resources of the enclosing sections, the outermost first *)
Inductive path_to : list nat -> list csec -> list nat -> csec -> Prop :=
| path_here : forall f i c, nth_error f i = Some c -> path_to [] f [i] c
| path_down : forall held f i r l n p x,
    nth_error f i = Some (CS r l n) -> path_to held n p x -> path_to (r :: held) f (i :: p) x.

(** a resource is requested while it is already held *)
Definition reentrant (f : list csec) : Prop :=
  exists held p c, path_to held f p c /\ In (cs_res c) held.

(** histories of construction through the public interface *)
Inductive built : list csec -> Prop :=
| built_empty : built []
| built_outermost : forall f r l, built f -> built (add_outermost f r l)
| built_nested : forall f i p r l f', built f -> add_nested f i p r l = Some f' -> built f'.

(** ** tasks that share resources *)
Definition shares (tasks : list (nat * list nat)) (t u : nat) : Prop :=
  exists a b r, In (t, a) tasks /\ In (u, b) tasks /\ In r a /\ In r b.
(** transitive sharing *)
Definition dependent (tasks : list (nat * list nat)) : nat -> nat -> Prop := clos_refl_sym_trans nat (shares tasks).
(** what the partition promises: the subsets cover the tasks, are disjoint, and
    are exactly the classes of [dependent] *)
Definition partitions (tasks : list (nat * list nat)) (subsets : list (list nat)) : Prop :=
  (forall t a, In (t, a) tasks -> exists s, In s subsets /\ In t s) /\
  (forall i j s s' t, nth_error subsets i = Some s -> nth_error subsets j = Some s' -> In t s -> In t s' -> i = j) /\
  (forall s t u, In s subsets -> In t s -> (In u s <-> dependent tasks t u)).

(** the textual order of positions: outer sections first, then from left to right *)
Inductive before : list nat -> list nat -> Prop :=
| before_outer : forall x q, before [] (x :: q)
| before_left : forall i j p q, i < j -> before (i :: p) (j :: q)
| before_below : forall i p q, before p q -> before (i :: p) (i :: q).
