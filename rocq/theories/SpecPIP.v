(** Specification of the global priority inheritance protocol: how the jobs of a
    task set execute on identical processors under preemptive fixed-priority
    scheduling if lock holders inherit the priorities of the jobs that wait for
    them.  Time is discrete. *)
From Coq Require Import NArith ZArith List Bool.
From Verif Require Import Base ModelLocking SpecLocking SpecQueue SpecDPCP SpecFMLPPlus.
Import ListNotations.
Open Scope Z_scope.

(** [sched t] are the jobs that the processors execute at time [t]. *)
Definition executes (sched : Z -> list (nat * nat)) (i k : nat) (t : Z) : bool :=
  existsb (fun j => Nat.eqb (fst j) i && Nat.eqb (snd j) k) (sched t).

(** the critical section of a request executes *)
Definition executes_cs (sched : Z -> list (nat * nat)) (c : creq) (t : Z) : bool :=
  (cr_start c <=? t) && (t <? cr_end c) && executes sched (cr_task c) (cr_job c) t.

(** a job of the task executes *)
Definition task_executes (sched : Z -> list (nat * nat)) (i : nat) (t : Z) : bool := existsb (fun j => Nat.eqb (fst j) i) (sched t).

(** The priority of a job is [p] or higher, by itself or because it holds a
    resource that a job of such a priority waits for. *)
Definition reaches (info : list taskinfo) (tr : nat -> list creq) (i k : nat) (t : Z) (p : N) : Prop :=
  (tprio info i <= p)%N \/
  exists r a b, In a (tr r) /\ In b (tr r) /\ cr_task a = i /\ cr_job a = k /\ cr_start a <= t < cr_end a /\
    cr_issue b <= t < cr_start b /\ (tprio info (cr_task b) <= p)%N.

Record pip_execution (info : list taskinfo) (m : nat) (rel comp : nat -> nat -> Z) (sched : Z -> list (nat * nat)) (tr : nat -> list creq) : Prop := {
  px_requests : forall r, lock_requests info rel comp r (executes_cs sched) (tr r);
  px_releases : forall t, In t info -> forall k, rel (ti_id t) k + Z.of_N (ti_period t) <= rel (ti_id t) (S k) /\ rel (ti_id t) k <= comp (ti_id t) k;
  (** at most [m] pending jobs that do not wait execute at a time *)
  px_cpus : forall t, NoDup (sched t) /\ (length (sched t) <= m)%nat;
  px_running : forall t j l, In (j, l) (sched t) -> (j < length info)%nat /\ pending rel comp j l t /\ ~ suspended tr j l t;
  px_distinct : forall r, NoDup (tr r);
  px_sequential : forall r s a b, In a (tr r) -> In b (tr s) -> (r, a) <> (s, b) -> cr_task a = cr_task b -> apart a b;
  (** mutual exclusion; a resource is held while requests wait for it, and the
      waiting request of the highest priority obtains it next *)
  px_mutex : forall r a b, In a (tr r) -> In b (tr r) -> a <> b -> cr_end a <= cr_start b \/ cr_end b <= cr_start a;
  px_held : forall r b t, In b (tr r) -> cr_issue b <= t < cr_start b -> exists a, In a (tr r) /\ cr_start a <= t < cr_end a;
  px_queue : forall r a b, In a (tr r) -> In b (tr r) -> cr_issue b < cr_start a < cr_start b -> (tprio info (cr_task a) <= tprio info (cr_task b))%N;
  (** a job that is pending and does not wait executes unless all processors
      execute jobs whose priorities are at least as high *)
  px_schedule : forall j l t, (j < length info)%nat -> pending rel comp j l t -> ~ suspended tr j l t -> ~ In (j, l) (sched t) ->
    length (sched t) = m /\ forall j' l', In (j', l') (sched t) -> forall p, reaches info tr j l t p -> reaches info tr j' l' t p }.

(** no job misses its deadline before time [e] *)
Definition on_time (info : list taskinfo) (rel comp : nat -> nat -> Z) (e : Z) : Prop :=
  forall t, In t info -> forall k, comp (ti_id t) k <= rel (ti_id t) k + Z.of_N (ti_deadline t) \/ e <= rel (ti_id t) k + Z.of_N (ti_deadline t).

(** Deadlines are constrained, priorities differ, critical sections end by the
    deadline if nothing delays them, and numbers fit into 32 bits. *)
Definition pip_params (info : list taskinfo) : Prop :=
  NoDup (map ti_prio info) /\
  forall t, In t info -> (ti_deadline t <= ti_period t)%N /\ (ti_prio t < UNLIMITED)%N /\
    Z.of_N (fold_right N.add 0%N (map (fun q => q_num q * q_len q)%N (ti_requests t))) <= Z.of_N (ti_deadline t) /\
    forall u, In u info -> (ti_response u + ti_deadline t < 2 ^ 32)%N.

(** the time for which jobs of tasks of higher priority than [p] execute *)
Definition higher_work (info : list taskinfo) (sched : Z -> list (nat * nat)) (p : N) (lo hi : Z) : Z :=
  zsum (map (fun u => instants (task_executes sched (ti_id u)) lo hi) (filter (fun u => (ti_prio u <? p)%N) info)).

(** a job completes as soon as it has executed for its cost, if not earlier *)
Definition works_off (info : list taskinfo) (rel comp : nat -> nat -> Z) (sched : Z -> list (nat * nat)) : Prop :=
  forall u, In u info -> forall k e, rel (ti_id u) k <= e < comp (ti_id u) k ->
    instants (executes sched (ti_id u) k) (rel (ti_id u) k) e < Z.of_N (ti_cost u).
