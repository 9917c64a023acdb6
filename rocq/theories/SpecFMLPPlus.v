(** Specification of the partitioned FMLP+ and of the blocking of jobs under
    it.  Time is discrete. *)
From Coq Require Import NArith ZArith List Bool.
From Verif Require Import ModelLocking SpecLocking SpecQueue SpecDPCP.
Import ListNotations.
Open Scope Z_scope.

(** The processor of a task. *)
Definition tcpu (info : list taskinfo) (i : nat) : nat := match nth_error info i with Some t => ti_cluster t | None => O end.

(** [sched p t] is the job that processor [p] executes at time [t], as a task and
    a job number.  A request executes while its job holds the lock and executes. *)
Definition runs (info : list taskinfo) (sched : nat -> Z -> option (nat * nat)) (r : nat) (c : creq) (t : Z) : bool :=
  (cr_start c <=? t) && (t <? cr_end c) &&
  match sched (tcpu info (cr_task c)) t with Some (i, k) => Nat.eqb i (cr_task c) && Nat.eqb k (cr_job c) | None => false end.

(** the job waits for a lock and is suspended *)
Definition suspended (tr : nat -> list creq) (i k : nat) (t : Z) : Prop :=
  exists r b, In b (tr r) /\ cr_task b = i /\ cr_job b = k /\ cr_issue b <= t < cr_start b.
Definition pending (rel comp : nat -> nat -> Z) (i k : nat) (t : Z) : Prop := rel i k <= t < comp i k.
Definition holds (tr : nat -> list creq) (i k : nat) (t : Z) : Prop :=
  exists r b, In b (tr r) /\ cr_task b = i /\ cr_job b = k /\ cr_start b <= t < cr_end b.

(** [stamp] orders the requests by the times of their issue.  If critical
    sections are not preemptive ([np]), a request that executes when another one
    on the same processor obtains its lock delays the latter even if it is later. *)
Record fmlpp_execution (info : list taskinfo) (np : bool) (rel comp : nat -> nat -> Z) (sched : nat -> Z -> option (nat * nat))
    (stamp : nat -> creq -> Z) (tr : nat -> list creq) : Prop := {
  fx_requests : forall r, lock_requests info rel comp r (runs info sched r) (tr r);
  (** a processor executes pending jobs of its own tasks that are not suspended *)
  fx_cpu : forall p t j l, sched p t = Some (j, l) -> tcpu info j = p /\ pending rel comp j l t /\ ~ suspended tr j l t;
  fx_distinct : forall r, NoDup (tr r);
  fx_sequential : forall r s a b, In a (tr r) -> In b (tr s) -> (r, a) <> (s, b) -> cr_task a = cr_task b -> apart a b;
  fx_stamp : forall r s a b, In a (tr r) -> In b (tr s) -> stamp r a < stamp s b -> cr_issue a <= cr_issue b;
  (** each resource has a FIFO queue, and is held while requests wait for it *)
  fx_fifo : forall r a b, In a (tr r) -> In b (tr r) -> a <> b -> (stamp r a < stamp r b /\ cr_end a <= cr_start b) \/ (stamp r b < stamp r a /\ cr_end b <= cr_start a);
  fx_held : forall r b t, In b (tr r) -> cr_issue b <= t < cr_start b -> exists a, In a (tr r) /\ cr_start a <= t < cr_end a /\ stamp r a < stamp r b;
  (** lock holders execute with boosted priority, in the order of their requests *)
  fx_boost : forall r a t, In a (tr r) -> cr_start a <= t < cr_end a ->
    exists s c, In c (tr s) /\ tcpu info (cr_task c) = tcpu info (cr_task a) /\ runs info sched s c t = true /\
      (stamp s c <= stamp r a \/ np = true /\ runs info sched s c (cr_start a) = true);
  (** a pending job that is not suspended executes unless its processor executes a
      job of higher priority, of the same task, or one that holds a lock *)
  fx_schedule : forall i k tsk t, nth_error info i = Some tsk -> pending rel comp i k t -> ~ suspended tr i k t ->
    exists j l, sched (ti_cluster tsk) t = Some (j, l) /\ ((tprio info j <= ti_prio tsk)%N \/ holds tr j l t);
  (** a job of lower priority does not issue a request while a job on its
      processor is pending and not suspended, unless that job suspends right then *)
  fx_issue : forall i k tsk r a, nth_error info i = Some tsk -> In a (tr r) -> tcpu info (cr_task a) = ti_cluster tsk -> (ti_prio tsk < tprio info (cr_task a))%N ->
    pending rel comp i k (cr_issue a - 1) -> ~ suspended tr i k (cr_issue a - 1) ->
    cr_issue a = comp i k \/
    exists s b, In b (tr s) /\ cr_task b = i /\ cr_job b = k /\ cr_issue b = cr_issue a /\ cr_issue b < cr_start b /\ stamp s b < stamp r a }.

(** ** Blocking of job [k] of task [i] *)

(** it is pending and its processor executes neither a job of higher priority
    nor a job of its own task *)
Definition pi_blocked (info : list taskinfo) (rel comp : nat -> nat -> Z) (sched : nat -> Z -> option (nat * nat)) (i k : nat) (t : Z) : Prop :=
  exists tsk, nth_error info i = Some tsk /\ pending rel comp i k t /\
  forall j l, sched (ti_cluster tsk) t = Some (j, l) -> (ti_prio tsk < tprio info j)%N.

(** it waits for a resource that a job on another processor holds *)
Definition waits_for_remote (info : list taskinfo) (tr : nat -> list creq) (i k : nat) (t : Z) : Prop :=
  exists r b h, In b (tr r) /\ cr_task b = i /\ cr_job b = k /\ cr_issue b <= t < cr_start b /\
    In h (tr r) /\ cr_start h <= t < cr_end h /\ tcpu info (cr_task h) <> tcpu info i.

(** it is pi-blocked otherwise *)
Definition blocked_locally (info : list taskinfo) (rel comp : nat -> nat -> Z) (sched : nat -> Z -> option (nat * nat)) (tr : nat -> list creq) (i k : nat) (t : Z) : Prop :=
  pi_blocked info rel comp sched i k t /\ ~ waits_for_remote info tr i k t.

(** The numbers that the analysis computes fit into 32 bits: no more than
    [UNLIMITED] requests can overlap a job. *)
Definition numbers_fit (info : list taskinfo) (tsk : taskinfo) : Prop :=
  (fold_right (fun rb s => get_max_num_requests rb (ti_response tsk) + s) 0 (all_requests info) <= UNLIMITED)%N.
