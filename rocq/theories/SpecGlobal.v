(** Independent specification: global multiprocessor schedules of sporadic job
    sequences, in unit time slots. *)
From Coq Require Import ZArith List Bool.
From Verif Require Import Base SpecUni SpecQPA.
Import ListNotations.
Open Scope Z_scope.

(** The jobs that run in slot [t, t+1). *)
Definition gschedule := nat -> list job.

Definition gruns (sc : gschedule) (j : job) (t : nat) : bool := existsb (job_eqb j) (sc t).

(** Service received in [0, t). *)
Definition gservice (sc : gschedule) (j : job) (t : nat) : Z := sumf (fun u => b2z (gruns sc j u)) t.

Definition gcompleted (s : jobseq) (sc : gschedule) (j : job) (t : nat) : Prop :=
  Z.of_nat (cst s (fst j) (snd j)) <= gservice sc j t.

(** Released, incomplete, and all earlier jobs of the same task are complete
    (tasks are sequential). *)
Definition gready (s : jobseq) (sc : gschedule) (j : job) (t : nat) : Prop :=
  (rel s (fst j) (snd j) <= t)%nat /\
  gservice sc j t < Z.of_nat (cst s (fst j) (snd j)) /\
  forall k, (k < snd j)%nat -> gcompleted s sc (fst j, k) t.

(** At most [m] different jobs run at a time, and only ready ones of the [n] tasks. *)
Definition gvalid (n m : nat) (s : jobseq) (sc : gschedule) : Prop :=
  forall t, (length (sc t) <= m)%nat /\ NoDup (sc t) /\
    forall j, In j (sc t) -> (fst j < n)%nat /\ gready s sc j t.

(** Global preemptive EDF on m processors, ties broken arbitrarily: a ready job
    waits only while m jobs run that are due no later. *)
Definition gedf (ts : list etask) (m : nat) (s : jobseq) (sc : gschedule) : Prop :=
  forall t j, (fst j < length ts)%nat -> gready s sc j t -> ~ In j (sc t) ->
    length (sc t) = m /\ forall j', In j' (sc t) -> due ts s j' <= due ts s j.

(** Job j completes within R time units of its arrival. *)
Definition responds (s : jobseq) (sc : gschedule) (j : job) (R : Z) : Prop :=
  exists q, Z.of_nat q <= Z.of_nat (arr s (fst j) (snd j)) + R /\ gcompleted s sc j q.

(** Every legal job sequence, scheduled by any global EDF schedule, meets all deadlines. *)
Definition gedf_schedulable (ts : list etask) (m : nat) : Prop :=
  forall s sc, legal_edf ts s -> gvalid (length ts) m s sc -> gedf ts m s sc ->
  forall j e, nth_error ts (fst j) = Some e -> responds s sc j (e_deadline e).
