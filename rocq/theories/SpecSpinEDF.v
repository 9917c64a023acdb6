(** Partitioned EDF schedules in which jobs share resources: FIFO spin locks
    with non-preemptive spinning for global resources, the stack resource policy
    (SRP) for local ones.  Time is discrete; what happens at instant [t] occupies
    the interval [t, t+1).  Nothing here refers to the bounds. *)
From Coq Require Import NArith ZArith List Bool.
From Verif Require Import ModelLocking SpecLocking SpecSpinFP.
Import ListNotations.
Open Scope Z_scope.

(** ** Locks: the rules of [SpecSpinFP] that do not mention the scheduler *)
Record lock_rules (info : list taskinfo) (E : execution) : Prop := {
  (** jobs: sporadic releases, at most the cost, complete once done *)
  lr_rel : forall i k t, nth_error info i = Some t -> 0 <= x_rel E i 0 /\ x_rel E i k + Z.of_N (ti_period t) <= x_rel E i (S k);
  lr_work : forall i k t u, nth_error info i = Some t -> pending E (i, k) u ->
    Z.of_nat (count (works E info (i, k)) (x_rel E i k) (Z.to_nat (u - x_rel E i k))) < Z.of_N (ti_cost t);
  (** requests: of jobs, while they are pending, of bounded number and length, one at a time *)
  lr_times : forall r c, In c (x_tr E r) -> cr_issue c <= cr_start c <= cr_end c /\ cr_issue c < cr_end c;
  lr_job : forall r c, In c (x_tr E r) -> x_rel E (cr_task c) (cr_job c) <= cr_issue c /\ cr_end c <= x_comp E (cr_task c) (cr_job c);
  lr_spec : forall r c, In c (x_tr E r) -> exists t q, nth_error info (cr_task c) = Some t /\ In q (ti_requests t) /\ q_res q = r /\
    Z.of_nat (count (runs E info (jobof c)) (cr_start c) (Z.to_nat (cr_end c - cr_start c))) <= Z.of_N (q_len q);
  lr_number : forall r i k t q, nth_error info i = Some t -> In q (ti_requests t) -> q_res q = r ->
    (N.of_nat (length (filter (is_job i k) (x_tr E r))) <= q_num q)%N;
  lr_sequential : forall r, ForallOrdPairs (fun a b => jobof a = jobof b -> apart a b) (x_tr E r);
  lr_one_at_a_time : forall r s a b, r <> s -> In a (x_tr E r) -> In b (x_tr E s) -> jobof a = jobof b -> apart a b;
  (** a job issues a request while it is scheduled *)
  lr_issue : forall r c, In c (x_tr E r) -> runs E info (jobof c) (cr_issue c) = true;
  (** global resources: spinning and executing is not preempted; the lock is not
      idle while a request waits *)
  lr_nonpreemptive : forall r c t, In c (x_tr E r) -> global_resource info r -> cr_issue c <= t < cr_end c -> runs E info (jobof c) t = true;
  lr_exclusive : forall r, global_resource info r -> ForallOrdPairs (fun a b => cr_end a <= cr_start b \/ cr_end b <= cr_start a) (x_tr E r);
  lr_busy : forall r b t, In b (x_tr E r) -> global_resource info r -> cr_issue b <= t < cr_start b ->
    exists a, In a (x_tr E r) /\ cr_start a <= t < cr_end a;
  (** local resources: never waited for *)
  lr_local : forall r c, In c (x_tr E r) -> ~ global_resource info r -> cr_start c = cr_issue c;
  (** the processors run pending jobs of local tasks only *)
  lr_sched : forall c t j, x_sched E c t = Some j -> pending E j t /\ exists k, nth_error info (fst j) = Some k /\ ti_cluster k = c }.

(** ** EDF with the stack resource policy *)

Definition due (info : list taskinfo) (E : execution) (j : nat * nat) : Z :=
  x_rel E (fst j) (snd j) + match nth_error info (fst j) with Some t => Z.of_N (ti_deadline t) | None => 0 end.

Definition on_cpu (info : list taskinfo) (c : nat) (j : nat * nat) : Prop := exists t, nth_error info (fst j) = Some t /\ ti_cluster t = c.

(** A consistent order of urgency: earlier deadlines first, ties broken in a fixed way. *)
Record urgency (info : list taskinfo) (E : execution) (before : nat * nat -> nat * nat -> Prop) : Prop := {
  ur_asym : forall a b, before a b -> before b a -> False;
  ur_total : forall a b, a <> b -> before a b \/ before b a;
  ur_edf : forall a b t u, nth_error info (fst a) = Some t -> nth_error info (fst b) = Some u -> due info E a < due info E b -> before a b }.

(** The job has executed before [t]. *)
Definition started (info : list taskinfo) (E : execution) (j : nat * nat) (t : Z) : Prop := exists u, u < t /\ runs E info j u = true.

(** The most urgent pending job of a processor. *)
Definition most_urgent (info : list taskinfo) (E : execution) (before : nat * nat -> nat * nat -> Prop) (c : nat) (t : Z) (j : nat * nat) : Prop :=
  on_cpu info c j /\ pending E j t /\ forall x, on_cpu info c x -> pending E x t -> x <> j -> before j x.

(** Inside a request for a global resource, after the instant at which it was issued. *)
Definition in_global (info : list taskinfo) (E : execution) (j : nat * nat) (t : Z) : Prop :=
  exists r a, global_resource info r /\ In a (x_tr E r) /\ jobof a = j /\ cr_issue a < t < cr_end a.

(** Another job of the processor holds a local resource whose ceiling is at
    least the preemption level of [j] (a small number is a high level). *)
Definition ceiling_blocked (info : list taskinfo) (E : execution) (c : nat) (j : nat * nat) (t : Z) : Prop :=
  exists r a p u, ~ global_resource info r /\ In a (x_tr E r) /\ jobof a <> j /\ on_cpu info c (jobof a) /\ cr_issue a < t < cr_end a /\
    is_ceiling info r p /\ nth_error info (fst j) = Some u /\ (p <= ti_prio u)%N.

Record edf_execution (info : list taskinfo) (E : execution) (before : nat * nat -> nat * nat -> Prop) : Prop := {
  ee_locks : lock_rules info E;
  ee_fifo : fifo_order info E;
  ee_order : urgency info E before;
  (** the processor is not idle while a job is pending *)
  ee_conserving : forall c j t, on_cpu info c j -> pending E j t -> x_sched E c t <> None;
  (** it runs the most urgent pending job, unless that has not started and is
      blocked; then the most urgent job that has started.  Requests for global
      resources are not interrupted. *)
  ee_srp : forall c t j, x_sched E c t = Some j -> in_global info E j t \/
    (most_urgent info E before c t j /\ (started info E j t \/ ~ ceiling_blocked info E c j t)) \/
    (started info E j t /\ (forall x, on_cpu info c x -> pending E x t -> started info E x t -> x <> j -> before j x) /\
     exists h, most_urgent info E before c t h /\ ~ started info E h t /\ ceiling_blocked info E c h t) }.

(** Preemption levels follow relative deadlines. *)
Definition levels_follow_deadlines (info : list taskinfo) : Prop :=
  forall t u, In t info -> In u info -> (ti_deadline t < ti_deadline u)%N -> (ti_prio t < ti_prio u)%N.

(** ** The criterion, in terms of the task set *)

(** The longest critical section on processor [c] for resource [r]. *)
Definition longest (info : list taskinfo) (c r : nat) : N :=
  fold_right N.max 0%N (map q_len (filter (fun q => Nat.eqb (q_res q) r) (flat_map ti_requests (filter (fun t => Nat.eqb (ti_cluster t) c) info)))).
(** FIFO spinning: one critical section of each other processor. *)
Definition fifo_wait (info : list taskinfo) (n c r : nat) : N :=
  fold_right N.add 0%N (map (fun k => longest info k r) (filter (fun k => negb (Nat.eqb k c)) (seq 0 n))).
Definition globalb (info : list taskinfo) (r : nat) : bool :=
  existsb (fun t => existsb (fun u => negb (Nat.eqb (ti_cluster t) (ti_cluster u)) &&
    existsb (fun q => Nat.eqb (q_res q) r) (ti_requests t) && existsb (fun q => Nat.eqb (q_res q) r) (ti_requests u)) info) info.
(** Cost with spinning. *)
Definition inflated (info : list taskinfo) (n : nat) (t : taskinfo) : N :=
  (ti_cost t + fold_right N.add 0 (map (fun q => q_num q * fifo_wait info n (ti_cluster t) (q_res q)) (filter (fun q => globalb info (q_res q)) (ti_requests t))))%N.
(** Demand of the jobs with release and deadline in an interval of length [L]. *)
Definition demand_of (info : list taskinfo) (n c : nat) (L : Z) : Z :=
  fold_right Z.add 0 (map (fun t => if L <? Z.of_N (ti_deadline t) then 0
      else ((L - Z.of_N (ti_deadline t)) / Z.of_N (ti_period t) + 1) * Z.of_N (inflated info n t))
    (filter (fun t => Nat.eqb (ti_cluster t) c) info)).
(** A job with a later deadline may block a job with deadline in the interval
    for [v]: with a global resource, including the time it spins, or with a
    local resource whose ceiling is reached. *)
Definition arrival_blocker (info : list taskinfo) (n c : nat) (L v : N) : Prop :=
  exists x q t, In x info /\ ti_cluster x = c /\ In q (ti_requests x) /\ (L < ti_deadline x)%N /\
    In t info /\ ti_cluster t = c /\ (ti_deadline t <= L)%N /\
    ((global_resource info (q_res q) /\ v = (fifo_wait info n c (q_res q) + q_len q)%N) \/
     (~ global_resource info (q_res q) /\ v = q_len q /\ exists u, uses info (q_res q) u /\ (ti_prio u <= ti_prio t)%N)).
Definition msrp_criterion (info : list taskinfo) (n c : nat) : Prop :=
  forall L, 0 <= L -> demand_of info n c L <= L /\ forall v, arrival_blocker info n c (Z.to_N L) v -> demand_of info n c L + Z.of_N v <= L.

(** Every job completes by its deadline. *)
Definition all_meet (info : list taskinfo) (E : execution) : Prop :=
  forall i k t, nth_error info i = Some t -> x_comp E i k <= x_rel E i k + Z.of_N (ti_deadline t).
