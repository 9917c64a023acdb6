(** Independent specification for uniprocessor EDF feasibility. *)
From Coq Require Import ZArith List.
From Verif Require Import Base SpecUni.
Import ListNotations.
Open Scope Z_scope.

(** A sporadic task seen by the specification: cost, period, relative deadline. *)
Record etask := ETask { e_cost : Z; e_period : Z; e_deadline : Z }.

(** Jobs of (i,k) are due [e_deadline] after they arrive, and arrive when released. *)
Definition legal_edf (ts : list etask) (s : jobseq) : Prop :=
  legal_seq (map (fun e => Promise (e_cost e) (e_period e) 0) ts) s.

Definition due (ts : list etask) (s : jobseq) (j : job) : Z :=
  Z.of_nat (arr s (fst j) (snd j)) + e_deadline (nth (fst j) ts (ETask 0 1 0)).

(** Preemptive EDF, ties broken arbitrarily: while a job is pending the
    processor serves a job that is due no later. *)
Definition edf_policy (ts : list etask) (s : jobseq) (sc : schedule) : Prop :=
  forall t j, (fst j < length ts)%nat -> pending s sc j t ->
    exists j', sc t = Some j' /\ due ts s j' <= due ts s j.

(** Job j is complete by its deadline. *)
Definition meets (ts : list etask) (s : jobseq) (sc : schedule) (j : job) : Prop :=
  exists q, Z.of_nat q <= due ts s j /\ completed s sc j q.

(** Processor demand: the number of jobs of a periodic task, released from 0
    on, that are due by t, times the cost. *)
Definition jobs_due (e : etask) (t : Z) : Z :=
  if t <? e_deadline e then 0 else (t - e_deadline e) / e_period e + 1.
Definition criterion (ts : list etask) : Prop :=
  forall t, 0 <= t -> zsum (map (fun e => e_cost e * jobs_due e t) ts) <= t.
