(** Independent specification for the simulator: the synchronous periodic
    sequence, completion times, and sets of completed jobs. *)
From Coq Require Import ZArith List Bool.
From Verif Require Import Base SpecUni SpecQPA SpecGlobal SpecTardiness.
Import ListNotations.
Open Scope Z_scope.

(** All tasks release their first job at time 0 and then periodically; every
    job executes for its full cost. *)
Definition sync_periodic (ts : list etask) : jobseq :=
  let e i := nth i ts (ETask 0 1 0) in
  JobSeq (fun i k => k * Z.to_nat (e_period (e i)))%nat (fun i k => k * Z.to_nat (e_period (e i)))%nat (fun i _ => Z.to_nat (e_cost (e i))).

(** Job j completes exactly at time t. *)
Definition finishes_at (s : jobseq) (sc : gschedule) (j : job) (t : nat) : Prop :=
  gcompleted s sc j t /\ forall t', (t' < t)%nat -> ~ gcompleted s sc j t'.

(** Global EDF, preemptive or non-preemptive. *)
Definition global_edf (preemptive : bool) (ts : list etask) (m : nat) (s : jobseq) (sc : gschedule) : Prop :=
  gvalid (length ts) m s sc /\
  if preemptive then gedf ts m s sc else np_gel (map e_deadline ts) (length ts) m s sc.

(** [l] lists the jobs of the n tasks that finish by T, with their completion times. *)
Definition lists_finished (n : nat) (s : jobseq) (sc : gschedule) (T : Z) (l : list (job * nat)) : Prop :=
  NoDup l /\ forall j t, In (j, t) l <-> (fst j < n)%nat /\ finishes_at s sc j t /\ Z.of_nat t <= T.

(** Tardiness of a job that completes at t. *)
Definition tardiness_of (ts : list etask) (s : jobseq) (p : job * nat) : Z := Z.max 0 (Z.of_nat (snd p) - due ts s (fst p)).
