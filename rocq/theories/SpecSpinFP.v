(** Partitioned fixed-priority schedules in which jobs share resources: spin
    locks with non-preemptive spinning for global resources, the (immediate)
    priority ceiling protocol for local ones.  Time is discrete; what happens at
    instant [t] occupies the interval [t, t+1).  Nothing here refers to the bounds. *)
From Coq Require Import NArith ZArith List Bool.
From Verif Require Import ModelLocking SpecLocking.
Import ListNotations.
Open Scope Z_scope.

(** ** Task sets *)

Definition uses (info : list taskinfo) (r : nat) (t : taskinfo) : Prop := In t info /\ exists q, In q (ti_requests t) /\ q_res q = r.
(** A resource is global if it is used on two processors, otherwise local. *)
Definition global_resource (info : list taskinfo) (r : nat) : Prop :=
  exists t u, uses info r t /\ uses info r u /\ ti_cluster t <> ti_cluster u.
(** The ceiling of a resource: the highest priority (smallest number) of its users. *)
Definition is_ceiling (info : list taskinfo) (r : nat) (p : N) : Prop :=
  (exists t, uses info r t /\ ti_prio t = p) /\ forall t, uses info r t -> (p <= ti_prio t)%N.

Definition distinct_priorities (info : list taskinfo) : Prop :=
  forall t u, In t info -> In u info -> ti_cluster t = ti_cluster u -> ti_prio t = ti_prio u -> t = u.

(** ** Executions *)

(** [rel], [comp]: release and completion of each job of each task; [tr]: the
    requests for each resource; [sched]: which job a processor executes. *)
Record execution := Exec {
  x_rel : nat -> nat -> Z; x_comp : nat -> nat -> Z;
  x_tr : nat -> list creq; x_sched : nat -> Z -> option (nat * nat) }.

Definition jobof (c : creq) : nat * nat := (cr_task c, cr_job c).
Definition pending (E : execution) (j : nat * nat) (t : Z) : Prop := x_rel E (fst j) (snd j) <= t < x_comp E (fst j) (snd j).

(** [b] in [a, a+n) *)
Fixpoint count (p : Z -> bool) (a : Z) (n : nat) : nat :=
  match n with O => O | S m => ((if p a then 1 else 0) + count p (a + 1) m)%nat end.

Definition runs (E : execution) (info : list taskinfo) (j : nat * nat) (t : Z) : bool :=
  match nth_error info (fst j) with
  | Some k => match x_sched E (ti_cluster k) t with Some j' => Nat.eqb (fst j') (fst j) && Nat.eqb (snd j') (snd j) | None => false end
  | None => false
  end.

Definition resources (info : list taskinfo) : list nat := flat_map (fun t => map q_res (ti_requests t)) info.

(** The job has issued a request that is not satisfied yet. *)
Definition spins (E : execution) (info : list taskinfo) (j : nat * nat) (t : Z) : bool :=
  existsb (fun r => existsb (fun c => is_job (fst j) (snd j) c && (cr_issue c <=? t) && (t <? cr_start c)) (x_tr E r)) (resources info).

(** The job makes progress. *)
Definition works (E : execution) (info : list taskinfo) (j : nat * nat) (t : Z) : bool := runs E info j t && negb (spins E info j t).

(** The priorities a job has at [t]: its own, and that of the critical section it
    is in (the ceiling, or the highest for a global resource) after the instant at which it issued the request. *)
Definition has_priority (E : execution) (info : list taskinfo) (j : nat * nat) (t : Z) (p : N) : Prop :=
  (exists k, nth_error info (fst j) = Some k /\ p = ti_prio k) \/
  exists r c, In c (x_tr E r) /\ jobof c = j /\ cr_issue c < t < cr_end c /\
    ((global_resource info r /\ p = 0%N) \/ (~ global_resource info r /\ is_ceiling info r p)).

(** The rules that do not depend on the order in which a lock serves requests. *)
Record spin_execution (info : list taskinfo) (E : execution) : Prop := {
  (** jobs: sporadic releases, at most the cost, complete once done *)
  se_rel : forall i k t, nth_error info i = Some t -> 0 <= x_rel E i 0 /\ x_rel E i k + Z.of_N (ti_period t) <= x_rel E i (S k);
  se_work : forall i k t u, nth_error info i = Some t -> pending E (i, k) u ->
    Z.of_nat (count (works E info (i, k)) (x_rel E i k) (Z.to_nat (u - x_rel E i k))) < Z.of_N (ti_cost t);
  (** requests: of jobs, while they are pending, of bounded number and length, one at a time *)
  se_times : forall r c, In c (x_tr E r) -> cr_issue c <= cr_start c <= cr_end c /\ cr_issue c < cr_end c;
  se_job : forall r c, In c (x_tr E r) -> x_rel E (cr_task c) (cr_job c) <= cr_issue c /\ cr_end c <= x_comp E (cr_task c) (cr_job c);
  se_spec : forall r c, In c (x_tr E r) -> exists t q, nth_error info (cr_task c) = Some t /\ In q (ti_requests t) /\ q_res q = r /\
    Z.of_nat (count (runs E info (jobof c)) (cr_start c) (Z.to_nat (cr_end c - cr_start c))) <= Z.of_N (q_len q);
  se_number : forall r i k t q, nth_error info i = Some t -> In q (ti_requests t) -> q_res q = r ->
    (N.of_nat (length (filter (is_job i k) (x_tr E r))) <= q_num q)%N;
  se_sequential : forall r, ForallOrdPairs (fun a b => jobof a = jobof b -> apart a b) (x_tr E r);
  se_one_at_a_time : forall r s a b, r <> s -> In a (x_tr E r) -> In b (x_tr E s) -> jobof a = jobof b -> apart a b;
  (** a job issues a request while it is scheduled *)
  se_issue : forall r c, In c (x_tr E r) -> runs E info (jobof c) (cr_issue c) = true;
  (** global resources: spinning and executing is not preempted; the lock is
      exclusive, and not idle while a request waits *)
  se_nonpreemptive : forall r c t, In c (x_tr E r) -> global_resource info r -> cr_issue c <= t < cr_end c -> runs E info (jobof c) t = true;
  se_exclusive : forall r, global_resource info r -> ForallOrdPairs (fun a b => cr_end a <= cr_start b \/ cr_end b <= cr_start a) (x_tr E r);
  se_busy : forall r b t, In b (x_tr E r) -> global_resource info r -> cr_issue b <= t < cr_start b ->
    exists a, In a (x_tr E r) /\ cr_start a <= t < cr_end a;
  (** local resources: never waited for, as the ceiling keeps others from running *)
  se_local : forall r c, In c (x_tr E r) -> ~ global_resource info r -> cr_start c = cr_issue c;
  (** the processors: pending jobs of local tasks only; a pending job runs unless
      one of at least its priority does *)
  se_sched : forall c t j, x_sched E c t = Some j -> pending E j t /\ exists k, nth_error info (fst j) = Some k /\ ti_cluster k = c;
  se_priority : forall j k t, nth_error info (fst j) = Some k -> pending E j t ->
    exists j', x_sched E (ti_cluster k) t = Some j' /\
      forall p, has_priority E info j t p -> exists p', has_priority E info j' t p' /\ (p' <= p)%N }.

(** Waiting requests are served in the order in which they were issued. *)
Definition fifo_order (info : list taskinfo) (E : execution) : Prop :=
  forall r a b, global_resource info r -> In a (x_tr E r) -> In b (x_tr E r) -> cr_issue a < cr_issue b -> cr_end a <= cr_start b.

(** ** What the bounds are about *)

(** A time at which no job of priority [p] or higher on processor [c] released earlier is left. *)
Definition quiet (info : list taskinfo) (E : execution) (c : nat) (p : N) (t : Z) : Prop :=
  forall i k u, nth_error info i = Some u -> ti_cluster u = c -> (ti_prio u <= p)%N -> x_rel E i k < t -> x_comp E i k <= t.

(** A processor is busy with priority [p] throughout [a, b). *)
Definition busy (info : list taskinfo) (E : execution) (c : nat) (p : N) (a b : Z) : Prop :=
  forall t, a <= t < b -> exists i k u, nth_error info i = Some u /\ ti_cluster u = c /\ (ti_prio u <= p)%N /\ pending E (i, k) t.

(** The processor does not work on jobs of priority [p] or higher: it runs a job
    of lower priority, or one that spins. *)
Definition lost (info : list taskinfo) (E : execution) (c : nat) (p : N) (t : Z) : bool :=
  match x_sched E c t with
  | Some j => match nth_error info (fst j) with Some k => (p <? ti_prio k)%N || spins E info j t | None => true end
  | None => true
  end.

(** Response times so far: jobs whose response-time bound ends before [d] meet it. *)
Definition on_time (info : list taskinfo) (E : execution) (d : Z) : Prop :=
  forall i k t, nth_error info i = Some t -> x_rel E i k + Z.of_N (ti_response t) < d -> x_comp E i k <= x_rel E i k + Z.of_N (ti_response t).

(** The response-time equation with the blocking terms [B]. *)
Definition response_times_ok (info : list taskinfo) (B : nat -> Z) : Prop :=
  forall i t, nth_error info i = Some t ->
    Z.of_N (ti_cost t) + B i +
    fold_right Z.add 0 (map (fun h => (Z.of_N (ti_response t) + Z.of_N (ti_period h) - 1) / Z.of_N (ti_period h) * Z.of_N (ti_cost h))
      (filter (fun h => Nat.eqb (ti_cluster h) (ti_cluster t) && (ti_prio h <? ti_prio t)%N) info)) <= Z.of_N (ti_response t) /\
    (0 < ti_cost t)%N /\ (ti_response t <= ti_period t)%N.
