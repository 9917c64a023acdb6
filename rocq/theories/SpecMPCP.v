(** Specification of the multiprocessor priority ceiling protocol and of the
    blocking of jobs under it.  Time is discrete. *)
From Coq Require Import NArith ZArith List Bool.
From Verif Require Import ModelLocking SpecLocking SpecQueue SpecDPCP SpecFMLPPlus.
Import ListNotations.
Open Scope Z_scope.

(** A task of priority at least [p] on a processor other than [c] uses resource
    [r]: a request for [r] that is issued on [c] executes with that priority,
    above all jobs that do not hold locks. *)
Definition remote_ceiling_reaches (info : list taskinfo) (c r : nat) (p : N) : Prop :=
  exists u q, In u info /\ ti_cluster u <> c /\ In q (ti_requests u) /\ q_res q = r /\ (ti_prio u <= p)%N.

(** the job is pending and the earlier jobs of its task are complete *)
Definition ready (rel comp : nat -> nat -> Z) (i k : nat) (t : Z) : Prop := pending rel comp i k t /\ forall l, (l < k)%nat -> comp i l <= t.

(** [sched p t] is the job that processor [p] executes at time [t]. [vs]: jobs of
    lower priority do not issue requests while a job waits (virtual spinning). *)
Record mpcp_execution (info : list taskinfo) (vs : bool) (rel comp : nat -> nat -> Z) (sched : nat -> Z -> option (nat * nat)) (tr : nat -> list creq) : Prop := {
  mp_requests : forall r, lock_requests info rel comp r (runs info sched r) (tr r);
  (** a processor executes pending jobs of its own tasks that are not suspended *)
  mp_cpu : forall p t j l, sched p t = Some (j, l) -> tcpu info j = p /\ pending rel comp j l t /\ ~ suspended tr j l t;
  mp_distinct : forall r, NoDup (tr r);
  mp_sequential : forall r s a b, In a (tr r) -> In b (tr s) -> (r, a) <> (s, b) -> cr_task a = cr_task b -> apart a b;
  (** mutual exclusion; a resource is held while requests wait for it, and the
      waiting request of the highest priority obtains it next *)
  mp_mutex : forall r a b, In a (tr r) -> In b (tr r) -> a <> b -> cr_end a <= cr_start b \/ cr_end b <= cr_start a;
  mp_held : forall r b t, In b (tr r) -> cr_issue b <= t < cr_start b -> exists a, In a (tr r) /\ cr_start a <= t < cr_end a;
  mp_priority : forall r a b, In a (tr r) -> In b (tr r) -> cr_issue b < cr_start a < cr_start b -> (tprio info (cr_task a) <= tprio info (cr_task b))%N;
  (** lock holders execute above other jobs, in the order of the ceilings *)
  mp_boost : forall r a t, In a (tr r) -> cr_start a <= t < cr_end a ->
    exists s c, In c (tr s) /\ tcpu info (cr_task c) = tcpu info (cr_task a) /\ runs info sched s c t = true /\
      forall p, remote_ceiling_reaches info (tcpu info (cr_task a)) r p -> remote_ceiling_reaches info (tcpu info (cr_task a)) s p;
  mp_schedule : forall i k tsk t, nth_error info i = Some tsk -> ready rel comp i k t -> ~ suspended tr i k t ->
    exists j l, sched (ti_cluster tsk) t = Some (j, l) /\ ((tprio info j <= ti_prio tsk)%N \/ holds tr j l t);
  (** no request is issued on a processor while a job holds a lock there *)
  mp_issue : forall r s a b, In a (tr r) -> In b (tr s) -> (r, a) <> (s, b) -> tcpu info (cr_task a) = tcpu info (cr_task b) -> ~ (cr_start a < cr_issue b < cr_end a);
  (** a job of lower priority does not issue a request while a job on its
      processor is ready and not suspended, unless that job suspends right then *)
  mp_lower : forall i k tsk r a, nth_error info i = Some tsk -> In a (tr r) -> tcpu info (cr_task a) = ti_cluster tsk -> (ti_prio tsk < tprio info (cr_task a))%N ->
    ready rel comp i k (cr_issue a - 1) -> vs = true \/ ~ suspended tr i k (cr_issue a - 1) ->
    cr_issue a = comp i k \/
    vs = false /\ exists s b, In b (tr s) /\ cr_task b = i /\ cr_job b = k /\ cr_issue b = cr_issue a /\ cr_issue b < cr_start b }.

(** job [k] of task [i] is ready or holds a lock, but its processor executes a
    job of lower priority *)
Definition delayed_by_lower (info : list taskinfo) (rel comp : nat -> nat -> Z) (sched : nat -> Z -> option (nat * nat)) (tr : nat -> list creq) (i k : nat) (t : Z) : Prop :=
  exists tsk, nth_error info i = Some tsk /\ pending rel comp i k t /\ ~ suspended tr i k t /\
  forall j l, sched (ti_cluster tsk) t = Some (j, l) -> (ti_prio tsk < tprio info j)%N.

(** unsigned int suffices for the sums and products of the bounds of [tsk] *)
Definition fits_uint (info : list taskinfo) (tsk : taskinfo) : Prop :=
  let limit := N.max (ti_response tsk) (ti_period tsk) in
  (limit <= 4294967295 /\ forall q, In q (ti_requests tsk) -> limit * q_num q <= 4294967295)%N /\
  (fold_right (fun q n => q_num q + n) 1 (ti_requests tsk) * fold_right (fun t n => fold_right (fun q m => N.max (q_len q) m) 0 (ti_requests t) + n) 0 info <= 4294967295)%N.
