(** Specification of the distributed priority ceiling protocol: the requests
    for a resource are served on the processor that the resource is assigned to,
    by agents that follow the priority ceiling protocol there.  Time is discrete. *)
From Coq Require Import NArith ZArith List Bool.
From Verif Require Import ModelLocking SpecLocking SpecQueue.
Import ListNotations.
Open Scope Z_scope.

(** The base priority of a task; smaller is higher. *)
Definition tprio (info : list taskinfo) (i : nat) : N := match nth_error info i with Some t => ti_prio t | None => 0%N end.

(** The ceiling of resource [r] is at least priority [p]: a task of priority at
    least [p] uses it. *)
Definition ceiling_reaches (info : list taskinfo) (r : nat) (p : N) : Prop :=
  exists u q, In u info /\ In q (ti_requests u) /\ q_res q = r /\ (ti_prio u <= p)%N.

(** from its issue to its completion *)
Definition outstanding (c : creq) (t : Z) : Prop := cr_issue c <= t < cr_end c.

(** [tr r] are the requests for resource [r], [place r] is the processor of [r]
    and [exec r c t] tells that the agent of request [c] executes at time [t]. *)
Record dpcp_execution (info : list taskinfo) (place : nat -> option nat) (rel comp : nat -> nat -> Z)
    (exec : nat -> creq -> Z -> bool) (tr : nat -> list creq) : Prop := {
  dp_requests : forall r, lock_requests info rel comp r (exec r) (tr r);
  dp_distinct : forall r, NoDup (tr r);
  (** a task waits for a request to complete before it issues the next one *)
  dp_sequential : forall r s a b, In a (tr r) -> In b (tr s) -> (r, a) <> (s, b) -> cr_task a = cr_task b -> apart a b;
  (** an agent executes while it holds the lock *)
  dp_exec : forall r a t, In a (tr r) -> exec r a t = true -> cr_start a <= t < cr_end a;
  (** one agent at a time per processor *)
  dp_cpu : forall p r s a b t, In a (tr r) -> In b (tr s) -> place r = Some p -> place s = Some p ->
    exec r a t = true -> exec s b t = true -> (r, a) = (s, b);
  (** a lock is granted only if the priority of the request exceeds the ceilings
      of all other locks held on the processor *)
  dp_ceiling : forall p r s a b, In a (tr r) -> In b (tr s) -> place r = Some p -> place s = Some p -> (r, a) <> (s, b) ->
    cr_start a < cr_end b -> cr_start b < cr_end a ->
    (cr_start a <= cr_start b /\ ~ ceiling_reaches info r (tprio info (cr_task b))) \/
    (cr_start b <= cr_start a /\ ~ ceiling_reaches info s (tprio info (cr_task a)));
  (** ... and not while a request of higher priority waits *)
  dp_order : forall p r s a b, In a (tr r) -> In b (tr s) -> place r = Some p -> place s = Some p ->
    cr_issue b <= cr_start a < cr_start b -> (tprio info (cr_task a) <= tprio info (cr_task b))%N;
  (** if the agent of an outstanding request does not execute, then the processor
      serves a request of higher priority (in the order of issue if the
      priorities are equal), or one that inherits such a priority from a waiting
      request that is denied the lock on account of its ceiling *)
  dp_progress : forall p s b t, In b (tr s) -> place s = Some p -> outstanding b t -> exec s b t = false ->
    exists r a, In a (tr r) /\ place r = Some p /\ exec r a t = true /\
    ((tprio info (cr_task a) < tprio info (cr_task b))%N \/
     (tprio info (cr_task a) = tprio info (cr_task b) /\ cr_issue a <= cr_issue b) \/
     exists u d, In d (tr u) /\ place u = Some p /\ cr_issue d <= t < cr_start d /\
       (tprio info (cr_task d) <= tprio info (cr_task b))%N /\ ceiling_reaches info r (tprio info (cr_task d))) }.

(** ** Delays of job [k] of task [i] *)

(** one of its requests to another processor is outstanding and not served *)
Definition waits_remotely (info : list taskinfo) (place : nat -> option nat) (exec : nat -> creq -> Z -> bool) (tr : nat -> list creq) (i k : nat) (t : Z) : Prop :=
  exists tsk p r b, nth_error info i = Some tsk /\ In b (tr r) /\ cr_task b = i /\ cr_job b = k /\
    place r = Some p /\ p <> ti_cluster tsk /\ outstanding b t /\ exec r b t = false.

(** its processor serves a request of another task *)
Definition displaced (info : list taskinfo) (place : nat -> option nat) (rel comp : nat -> nat -> Z) (exec : nat -> creq -> Z -> bool) (tr : nat -> list creq) (i k : nat) (t : Z) : Prop :=
  exists tsk r a, nth_error info i = Some tsk /\ rel i k <= t < comp i k /\ In a (tr r) /\ cr_task a <> i /\
    place r = Some (ti_cluster tsk) /\ exec r a t = true.

(** one of its requests is outstanding and not served *)
Definition waits (exec : nat -> creq -> Z -> bool) (tr : nat -> list creq) (i k : nat) (t : Z) : Prop :=
  exists r b, In b (tr r) /\ cr_task b = i /\ cr_job b = k /\ outstanding b t /\ exec r b t = false.

(** A condition holds at no more than [n] instants. *)
Definition at_most (n : N) (P : Z -> Prop) : Prop :=
  forall ts, NoDup ts -> (forall t, In t ts -> P t) -> (N.of_nat (length ts) <= n)%N.
