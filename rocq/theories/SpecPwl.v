(** Specification for C27: running maxima and linear interpolation of samples. *)
From Coq Require Import QArith List.
Import ListNotations.
Open Scope Q_scope.

(** [m] is the largest value among the first [S i] samples *)
Definition running_max (pts : list (Q * Q)) (i : nat) (m : Q) : Prop :=
  (forall j p, (j <= i)%nat -> nth_error pts j = Some p -> snd p <= m) /\
  exists j p, (j <= i)%nat /\ nth_error pts j = Some p /\ snd p == m.

(** the sample positions increase *)
Definition increasing (pts : list (Q * Q)) : Prop :=
  forall i p q, nth_error pts i = Some p -> nth_error pts (S i) = Some q -> fst p < fst q.

(** [v] is the value at [x] on the straight line through (x1, y1) and (x2, y2) *)
Definition interpolated (x1 y1 x2 y2 x v : Q) : Prop := v * (x2 - x1) == y1 * (x2 - x) + y2 * (x - x1).
