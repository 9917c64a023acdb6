(** Specification for affinity-aware (semi-)partitioning. *)
From Coq Require Import ZArith List Permutation.
From Verif Require Import Base SpecUni SpecQPA ModelAPA.
Import ListNotations.
Open Scope Z_scope.

(** Tasks the library can represent: positive parameters, cost at most the deadline, which
    fits a machine word. *)
Definition wf_atask (t : atask) : Prop :=
  1 <= a_cost t /\ 1 <= a_period t /\ a_cost t <= a_deadline t <= 18446744073709551615.

Definition etask_of (t : atask) : etask := ETask (a_cost t) (a_period t) (a_deadline t).

(** The tasks of one core never demand more than the length of an interval. *)
Definition schedulable (l : list atask) : Prop := criterion (map etask_of l).

(** A chunk of [w] units with a deadline of [w], and what is left of the task. *)
Definition chunk (t : atask) (w : Z) : atask := ATask (a_id t) w (a_period t) w [].
Definition leftover (t : atask) (w : Z) : atask :=
  ATask (a_id t) (a_cost t - w) (a_period t) (a_deadline t - w) (a_aff t).

(** [pieces min t ps rest]: task [t] has become the pieces [ps], each with its core, and the
    unassigned [rest].  Every piece is on a core of the affinity; neither a chunk nor what
    is left by it is smaller than [min]. *)
Inductive pieces (min : Z) : atask -> list (nat * atask) -> option atask -> Prop :=
| pieces_unassigned t : pieces min t [] (Some t)
| pieces_whole t c : In c (a_aff t) -> pieces min t [(c, t)] None
| pieces_split t c w ps rest : In c (a_aff t) -> 0 < w < a_cost t -> min <= w -> min <= a_cost t - w ->
    pieces min (leftover t w) ps rest -> pieces min t ((c, chunk t w) :: ps) rest.

(** The pieces on a core. *)
Definition on_core (c : nat) (ps : list (nat * atask)) : list atask := map snd (filter (fun p => Nat.eqb (fst p) c) ps).

Definition opt_list {A} (o : option A) : list A := match o with Some x => [x] | None => [] end.

(** The outcome of an assignment: every given task is unassigned, assigned or split; the cores
    hold the pieces and what was there before, and are schedulable. *)
Definition correct (min : Z) (tasks : list atask) (before : nat -> list atask) (unassigned : list atask) (after : nat -> list atask) : Prop :=
  (exists d : list (atask * (list (nat * atask) * option atask)),
    Permutation (map fst d) tasks /\
    Forall (fun x => pieces min (fst x) (fst (snd x)) (snd (snd x))) d /\
    Permutation unassigned (flat_map (fun x => opt_list (snd (snd x))) d) /\
    forall c, Permutation (after c) (before c ++ on_core c (flat_map (fun x => fst (snd x)) d))) /\
  forall c, schedulable (after c).

(** No core of the affinity has room for [t] nor, if splits are allowed and [t] is large
    enough, for a chunk of it. *)
Definition stuck (min : Z) (splits : bool) (t : atask) (after : nat -> list atask) : Prop :=
  forall c, In c (a_aff t) -> ~ schedulable (after c ++ [t]) /\
    (splits = true -> 2 * min <= a_cost t -> forall w, min <= w <= a_cost t -> 0 < w -> ~ schedulable (after c ++ [chunk t w])).

(** ** Run time *)

(** Job k of a task that arrives at [start k] is released to the core of its first piece at
    once, and to the core of each later piece at the deadline of the piece before.
    [at_ ] are the positions of the pieces among the tasks of their cores. *)
Fixpoint released (after : nat -> list atask) (s : nat -> jobseq) (ps : list (nat * atask)) (at_ : list nat) (start : nat -> Z) : Prop :=
  match ps, at_ with
  | [], [] => True
  | (c, p) :: ps, i :: at_ => nth_error (after c) i = Some p /\ (forall k, Z.of_nat (arr (s c) i k) = start k) /\
      released after s ps at_ (fun k => start k + a_deadline p)
  | _, _ => False
  end.

(** Every piece is complete when the next is released, and the last at time [fin]. *)
Fixpoint finished (s : nat -> jobseq) (sc : nat -> schedule) (ps : list (nat * atask)) (at_ : list nat) (start fin : nat -> Z) : Prop :=
  match ps, at_ with
  | [], [] => forall k, start k = fin k
  | (c, p) :: ps, i :: at_ => (forall k, exists q, Z.of_nat q <= start k + a_deadline p /\ completed (s c) (sc c) (i, k) q) /\
      finished s sc ps at_ (fun k => start k + a_deadline p) fin
  | _, _ => False
  end.
