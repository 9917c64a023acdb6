(** Independent specification: global EDF schedules of sporadic tasks whose jobs
    may suspend themselves, in unit time slots. *)
From Coq Require Import ZArith List Bool.
From Verif Require Import Base SpecUni SpecQPA SpecGlobal.
Import ListNotations.
Open Scope Z_scope.

(** The jobs that are suspended in slot [t, t+1). *)
Definition suspensions := nat -> job -> bool.

(** Time for which a job is suspended in [0, t). *)
Definition suspended_time (su : suspensions) (j : job) (t : nat) : Z := sumf (fun u => b2z (su u j)) t.

(** A job has run for its cost and has been suspended for its total [tot]. *)
Definition finished (s : jobseq) (sc : gschedule) (tot : nat -> nat -> nat) (su : suspensions) (j : job) (t : nat) : Prop :=
  gcompleted s sc j t /\ Z.of_nat (tot (fst j) (snd j)) <= suspended_time su j t.

(** A job of task i is suspended for at most S i in total, at any time after its
    release, but not while it runs.  A job that has nothing left to execute is
    suspended until it is finished. *)
Definition suspends (n : nat) (S : nat -> Z) (s : jobseq) (sc : gschedule) (tot : nat -> nat -> nat) (su : suspensions) : Prop :=
  forall j, (fst j < n)%nat ->
    Z.of_nat (tot (fst j) (snd j)) <= S (fst j) /\
    forall t, suspended_time su j t <= Z.of_nat (tot (fst j) (snd j)) /\
      (su t j = true -> (rel s (fst j) (snd j) <= t)%nat /\ ~ In j (sc t)) /\
      ((rel s (fst j) (snd j) <= t)%nat -> gcompleted s sc j t -> suspended_time su j t < Z.of_nat (tot (fst j) (snd j)) -> su t j = true).

(** Global preemptive EDF on m processors, ties broken arbitrarily: a ready job
    that is not suspended waits only while m jobs run that are due no later. *)
Definition sgedf (ts : list etask) (m : nat) (s : jobseq) (sc : gschedule) (su : suspensions) : Prop :=
  forall t j, (fst j < length ts)%nat -> gready s sc j t -> su t j = false -> ~ In j (sc t) ->
    length (sc t) = m /\ forall j', In j' (sc t) -> due ts s j' <= due ts s j.

(** In every such schedule of every legal job sequence all jobs finish in time. *)
Definition sgedf_schedulable (ts : list etask) (S : nat -> Z) (m : nat) : Prop :=
  forall s sc tot su, legal_edf ts s -> gvalid (length ts) m s sc -> suspends (length ts) S s sc tot su -> sgedf ts m s sc su ->
  forall j e, nth_error ts (fst j) = Some e ->
  exists q, Z.of_nat q <= Z.of_nat (arr s (fst j) (snd j)) + e_deadline e /\ finished s sc tot su j q.
