(** Specification for the probabilistic CAN analysis: the Poisson distribution
    and the first number of faults that fits into its window. *)
From Coq Require Import Reals ZArith List Bool Arith.
From Verif Require Import Base ModelCAN.
Import ListNotations.
Local Open Scope R_scope.

(** the probability of [k] events if [lam] are expected *)
Definition poisson (lam : R) (k : nat) : R := exp (- lam) * lam ^ k / INR (fact k).

Definition rsum {A} (f : A -> R) (l : list A) : R := fold_right (fun x s => f x + s) 0 l.

(** The time line is cut at the ends of the windows: the first window, then what
    each next window has in addition.  [d i] is the expected number of faults in
    part [i]; the counts of disjoint parts are independent, so the probability of
    a sequence of counts is the product. *)
Fixpoint weight (d : nat -> R) (i : nat) (counts : list nat) : R :=
  match counts with [] => 1 | x :: r => poisson (d i) x * weight d (S i) r end.

Definition total (counts : list nat) : nat := fold_right Nat.add 0%nat counts.

(** [n] is the first number such that at most [n] faults fall into window [n]:
    each smaller window [j] sees more than [j] faults, window [n] exactly [n] *)
Definition first_time (n : nat) (counts : list nat) : Prop :=
  length counts = S n /\ total counts = n /\ forall j, (j < n)%nat -> (j < total (firstn (S j) counts))%nat.

(** the probability of this event: the sum over all sequences of counts in it *)
Definition prob_first (d : nat -> R) (n : nat) (p : R) : Prop :=
  exists L, NoDup L /\ (forall l, In l L <-> first_time n l) /\ p = rsum (weight d 0) L.

(** [n] faults are tolerated: the recurrence has a solution that meets the deadline *)
Definition in_time (m : cmsg) (w : Z) : Prop := (w + cm_jitter m <= cm_deadline m)%Z.

(** the expected numbers of faults at rate [mfr] if window [j] is [w j] long *)
Definition parts (mfr : R) (w : nat -> Z) (i : nat) : R :=
  match i with O => mfr * IZR (w 0%nat) | S j => mfr * IZR (w (S j) - w j) end.
