(** Independent specification: infinite sporadic job sequences and discrete
    uniprocessor schedules. *)
From Coq Require Import ZArith List Bool.
From Verif Require Import Base.
Import ListNotations.
Open Scope Z_scope.

(** Job (i,k) is the k-th job (from 0) of the i-th task.  A finite sequence is
    represented by giving the missing jobs cost 0. *)
Definition job := (nat * nat)%type.
Definition job_eqb (a b : job) : bool := (Nat.eqb (fst a) (fst b)) && (Nat.eqb (snd a) (snd b)).

Record jobseq := JobSeq {
  arr : nat -> nat -> nat;    (** arrival times *)
  rel : nat -> nat -> nat;    (** release times (arrival plus jitter) *)
  cst : nat -> nat -> nat }.  (** actual execution requirements *)

(** What a task promises. *)
Record promise := Promise { pr_cost : Z; pr_period : Z; pr_jitter : Z }.

Definition legal_seq (ps : list promise) (s : jobseq) : Prop :=
  forall i p, nth_error ps i = Some p -> forall k,
    Z.of_nat (arr s i k) + pr_period p <= Z.of_nat (arr s i (S k)) /\
    (arr s i k <= rel s i k)%nat /\
    Z.of_nat (rel s i k) <= Z.of_nat (arr s i k) + pr_jitter p /\
    Z.of_nat (cst s i k) <= pr_cost p.

(** A uniprocessor schedule: at most one job per time slot [t, t+1). *)
Definition schedule := nat -> option job.

Definition runs (sc : schedule) (j : job) (t : nat) : bool :=
  match sc t with Some j' => job_eqb j' j | None => false end.

(** Service received in [0, t). *)
Definition service (sc : schedule) (j : job) (t : nat) : Z := sumf (fun u => b2z (runs sc j u)) t.

Definition completed (s : jobseq) (sc : schedule) (j : job) (t : nat) : Prop :=
  Z.of_nat (cst s (fst j) (snd j)) <= service sc j t.

Definition pending (s : jobseq) (sc : schedule) (j : job) (t : nat) : Prop :=
  (rel s (fst j) (snd j) <= t)%nat /\ service sc j t < Z.of_nat (cst s (fst j) (snd j)).

(** Only pending jobs of the [n] tasks are ever scheduled. *)
Definition valid_schedule (n : nat) (s : jobseq) (sc : schedule) : Prop :=
  forall t j, sc t = Some j -> (fst j < n)%nat /\ pending s sc j t.

(** Fixed priorities: smaller task index = higher priority; jobs of the same
    task in arrival order.  [hep j' j]: j' is at least as important as j. *)
Definition hep (j' j : job) : bool :=
  Nat.ltb (fst j') (fst j) || (Nat.eqb (fst j') (fst j) && Nat.leb (snd j') (snd j)).

(** Slot t is used by a job at least as important as j. *)
Definition serves (sc : schedule) (j : job) (t : nat) : bool :=
  match sc t with Some j' => hep j' j | None => false end.

(** Slots of [t1, t2) not used by such a job. *)
Definition lost (sc : schedule) (j : job) (t1 t2 : nat) : Z :=
  sumf (fun d => b2z (negb (serves sc j (t1 + d)))) (t2 - t1).

(** Preemptive fixed-priority policy with bounded priority inversion: in every
    interval in which some job at least as important as [j] is pending
    throughout, at most [b i] slots are not given to such a job, where i is the
    task of j. *)
Definition fp_policy (n : nat) (s : jobseq) (sc : schedule) (b : nat -> Z) : Prop :=
  forall j t1 t2, (fst j < n)%nat -> (t1 <= t2)%nat ->
    (forall t, (t1 <= t < t2)%nat -> exists j', hep j' j = true /\ pending s sc j' t) ->
    lost sc j t1 t2 <= b (fst j).

(** The textbook policy: a pending job is never overtaken by a less important
    job and the processor never idles while a job is pending. *)
Definition fp_strict (n : nat) (s : jobseq) (sc : schedule) : Prop :=
  forall t j, (fst j < n)%nat -> pending s sc j t ->
    exists j', sc t = Some j' /\ hep j' j = true.

(** Critical instant: all tasks release their first job together after their
    maximal jitter, later jobs arrive periodically and are released at once;
    every job runs for its full cost. Without jitter this is the synchronous
    periodic sequence. *)
Definition max_jitter (ps : list promise) : Z := fold_right (fun p m => Z.max (pr_jitter p) m) 0 ps.
Definition critical (ps : list promise) : jobseq :=
  let p i := nth i ps (Promise 0 1 0) in
  let arrival i (k : nat) := Z.to_nat (max_jitter ps - pr_jitter (p i) + Z.of_nat k * pr_period (p i)) in
  JobSeq arrival
         (fun i k => Nat.max (Z.to_nat (max_jitter ps)) (arrival i k))
         (fun i _ => Z.to_nat (pr_cost (p i))).
