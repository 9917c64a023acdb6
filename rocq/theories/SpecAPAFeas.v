(** Specification: schedules of sporadic tasks with arbitrary processor
    affinities, in time slots of length 1/K. *)
From Coq Require Import ZArith QArith List Bool.
From Verif Require Import Base SpecUni SpecQPA ModelLP SpecLP.
Import ListNotations.
Open Scope Z_scope.

(** slot, processor -> job *)
Definition aschedule := nat -> nat -> option job.

Definition aruns (sc : aschedule) (j : job) (t c : nat) : bool := match sc t c with Some j' => job_eqb j' j | None => false end.

(** Service received on [m] processors in the first t slots. *)
Definition aservice (m : nat) (sc : aschedule) (j : job) (t : nat) : Z := sumf (fun u => sumf (fun c => b2z (aruns sc j u c)) m) t.

(** The sequence [s] measured in slots of length 1/K. *)
Definition refine (K : nat) (s : jobseq) : jobseq :=
  JobSeq (fun i k => K * arr s i k)%nat (fun i k => K * rel s i k)%nat (fun i k => K * cst s i k)%nat.

(** Only released and incomplete jobs run, each task on one processor at a
    time, and only on processors of its affinity. *)
Definition avalid (m : nat) (afs : list (list nat)) (s : jobseq) (sc : aschedule) : Prop :=
  forall t c j, sc t c = Some j ->
    (c < m)%nat /\ (exists af, nth_error afs (fst j) = Some af /\ In c af) /\
    (rel s (fst j) (snd j) <= t)%nat /\ aservice m sc j t < Z.of_nat (cst s (fst j) (snd j)) /\
    forall c' k, sc t c' = Some (fst j, k) -> c' = c.

(** All jobs complete by their deadlines; [s] and [ts] in whole time units. *)
Definition ameets (m K : nat) (ts : list etask) (s : jobseq) (sc : aschedule) : Prop :=
  forall j e, nth_error ts (fst j) = Some e ->
    exists q, Z.of_nat q <= Z.of_nat K * (Z.of_nat (arr s (fst j) (snd j)) + e_deadline e) /\
    Z.of_nat (cst (refine K s) (fst j) (snd j)) <= aservice m sc j q.

(** What a correct solver answers for a program. *)
Definition solves {V} (lp : lprog V) (answer : option (V -> Q)) : Prop :=
  match answer with Some x => feasible lp x | None => forall x, ~ feasible lp x end.
