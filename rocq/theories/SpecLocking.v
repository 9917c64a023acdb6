(** Specifications for shared-resource blocking, independent of the bounds:
    which request selections can delay a task, how sporadic jobs issue
    requests, and how a FIFO spin lock with non-preemptive spinning executes. *)
From Coq Require Import NArith ZArith List Bool Sorted.
From Verif Require Import ModelLocking.
Import ListNotations.

(** ** Selections of interfering requests *)

(** [n] requests of a source fit in an interval: they are issued by [j] jobs,
    and [j] jobs released at least a period apart can all be pending in it. *)
Definition fits (r : rbound) (interval n : N) : Prop :=
  exists j : N, (n <= j * q_num (rb_req r) /\
    (j = 0 \/ (j - 1) * ti_period (rb_task r) < interval + ti_response (rb_task r)))%N.

Definition occurrences (k : nat) (sel : list (nat * N)) : N :=
  N.of_nat (length (filter (fun p => Nat.eqb (fst p) k) sel)).

Definition total_length (sel : list (nat * N)) : N := fold_right (fun p s => (snd p + s)%N) 0%N sel.

(** A selection lists, for each interfering request, the index of its source in
    the contention set and its length. *)
Record selection (cont : list rbound) (excluded : taskinfo -> bool) (interval max_total per_source : N) (sel : list (nat * N)) : Prop := {
  sel_sources : forall k l, In (k, l) sel -> exists r, nth_error cont k = Some r /\ excluded (rb_task r) = false /\ (l <= q_len (rb_req r))%N;
  sel_fits : forall k r, nth_error cont k = Some r -> fits r interval (occurrences k sel);
  sel_per_source : forall k, (occurrences k sel <= per_source)%N;
  sel_total : (N.of_nat (length sel) <= max_total)%N }.

(** one selection per cluster, and an overall limit *)
Definition kx_selection (clusters : list (list rbound * (N * N))) (excluded : nat) (interval cap : N) (sels : list (list (nat * N))) : Prop :=
  Forall2 (fun p sel => selection (fst p) (fun t => Nat.eqb (ti_id t) excluded) interval (fst (snd p)) (snd (snd p)) sel) clusters sels /\
  (N.of_nat (length (concat sels)) <= cap)%N.

(** ** Sporadic jobs with bounded response times *)

(** [rel k] and [comp k] are the release and completion times of job [k]. *)
Definition sporadic_jobs (period response : N) (rel comp : nat -> Z) : Prop :=
  (forall k, rel k + Z.of_N period <= rel (S k))%Z /\ (forall k, rel k <= comp k <= rel k + Z.of_N response)%Z.

(** A job may execute in the interval that starts at [t]. *)
Definition pending_in (rel comp : nat -> Z) (t interval : Z) (k : nat) : Prop := (rel k < t + interval /\ t <= comp k)%Z.

(** ** FIFO spin locks *)

(** An executed request: its task and job, the processor it spins and executes
    on (numbered within the task's cluster), and when it is issued, satisfied
    and completed. *)
Record creq := CReq { cr_task : nat; cr_job : nat; cr_cpu : nat; cr_issue : Z; cr_start : Z; cr_end : Z }.

(** The processors of a cluster that execute tasks. *)
Definition available (procs : N) (irq : option nat) (cluster : nat) : N :=
  (procs - match irq with Some i => if Nat.eqb i cluster then 1 else 0 | None => 0 end)%N.

Definition is_job (i k : nat) (c : creq) : bool := Nat.eqb (cr_task c) i && Nat.eqb (cr_job c) k.

Definition apart (a b : creq) : Prop := (cr_end a <= cr_issue b \/ cr_end b <= cr_issue a)%Z.

(** All requests for one resource in the order in which they enter the queue. *)
Record fifo_execution (info : list taskinfo) (procs : N) (irq : option nat) (rel comp : nat -> nat -> Z) (res : nat) (tr : list creq) : Prop := {
  fe_times : forall c, In c tr -> (cr_issue c <= cr_start c <= cr_end c)%Z;
  fe_fifo : ForallOrdPairs (fun a b => (cr_issue a <= cr_issue b /\ cr_end a <= cr_start b)%Z) tr;
  fe_handover : forall pre b post, tr = pre ++ b :: post -> forall t, (cr_issue b <= t < cr_start b)%Z ->
    exists a, In a pre /\ (cr_start a <= t < cr_end a)%Z;
  fe_spec : forall c, In c tr -> exists t q, nth_error info (cr_task c) = Some t /\ In q (ti_requests t) /\ q_res q = res /\
    (cr_end c - cr_start c <= Z.of_N (q_len q))%Z;
  fe_number : forall i k t q, nth_error info i = Some t -> In q (ti_requests t) -> q_res q = res ->
    (N.of_nat (length (filter (is_job i k) tr)) <= q_num q)%N;
  fe_job : forall c, In c tr -> (rel (cr_task c) (cr_job c) <= cr_issue c /\ cr_end c <= comp (cr_task c) (cr_job c))%Z;
  fe_cpu : forall c t, In c tr -> nth_error info (cr_task c) = Some t -> (N.of_nat (cr_cpu c) < available procs irq (ti_cluster t))%N;
  (** spinning and executing a request is not preempted *)
  fe_nonpreemptive : ForallOrdPairs (fun a b => forall t u, nth_error info (cr_task a) = Some t -> nth_error info (cr_task b) = Some u ->
    ti_cluster t = ti_cluster u -> cr_cpu a = cr_cpu b -> apart a b) tr;
  (** a task is sequential *)
  fe_sequential : ForallOrdPairs (fun a b => cr_task a = cr_task b -> apart a b) tr }.

(** The time that job [k] of task [i] spins for the resource. *)
Definition spin_time (i k : nat) (tr : list creq) : Z :=
  fold_right (fun c s => if is_job i k c then cr_start c - cr_issue c + s else s)%Z 0%Z tr.

(** Task sets as built by add_task and add_request, with at most one request
    bound per task and resource. *)
Definition wf_info (info : list taskinfo) : Prop :=
  map ti_id info = seq 0 (length info) /\
  forall t, In t info -> (0 < ti_period t)%N /\ NoDup (map q_res (ti_requests t)).

(** ** Componentwise larger resource-sharing problems *)

Definition req_le (q q' : reqspec) : Prop := q_res q = q_res q' /\ (q_num q <= q_num q')%N /\ (q_len q <= q_len q')%N.

Definition task_le (t t' : taskinfo) : Prop :=
  ti_id t = ti_id t' /\ ti_cluster t = ti_cluster t' /\ ti_prio t = ti_prio t' /\
  (ti_period t' <= ti_period t)%N /\ (ti_response t <= ti_response t')%N /\
  forall q, In q (ti_requests t) -> exists q', In q' (ti_requests t') /\ req_le q q'.

(** More tasks, more and longer requests, shorter periods, longer response times. *)
Definition info_le (info info' : list taskinfo) : Prop :=
  forall t, In t info -> exists t', In t' info' /\ task_le t t'.

(** ** Ceiling blocking *)

Open Scope N_scope.

(** requests of local lower-priority tasks whose resource is shared with a task
    of at least the priority of [tsk] *)
Definition can_block (info : list taskinfo) (tsk low : taskinfo) (q : reqspec) : Prop :=
  In low info /\ ti_id low <> ti_id tsk /\ ti_cluster low = ti_cluster tsk /\ ti_prio tsk <= ti_prio low /\ In q (ti_requests low) /\
  exists u x, In u info /\ In x (ti_requests u) /\ q_res x = q_res q /\ ti_prio u <= ti_prio tsk.

(** The total spinning of a job for several resources. *)
Definition total_spin (i k : nat) (tr : nat -> list creq) (rs : list nat) : Z :=
  fold_right Z.add 0%Z (map (fun r => spin_time i k (tr r)) rs).
