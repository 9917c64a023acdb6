(** Specifications of reader-writer spin locks: executions of phase-fair and of
    task-fair locks, and selections with limits per task, per cluster and overall. *)
From Coq Require Import NArith ZArith List Bool.
From Verif Require Import ModelLocking ModelResources ModelRW SpecLocking.
Import ListNotations.
Open Scope Z_scope.

(** A request and whether it is a read. *)
Notation rwreq := (creq * bool)%type.

Definition waits (c : creq) (t : Z) : Prop := cr_issue c <= t < cr_start c.
Definition holds (c : creq) (t : Z) : Prop := cr_start c <= t < cr_end c.

(** Task sets with at most one read bound and one write bound per task and resource. *)
Definition wf_rw (info : list taskinfo) : Prop :=
  map ti_id info = seq 0 (length info) /\
  forall t, In t info -> (0 < ti_period t)%N /\ NoDup (map (fun q => (q_res q, q_read q)) (ti_requests t)).

(** The requests for one resource, whatever the lock does: they respect the task
    parameters, a task is sequential, and a processor that spins or executes a
    critical section does nothing else. *)
Record rw_trace (info : list taskinfo) (procs : N) (irq : option nat) (rel comp : nat -> nat -> Z) (res : nat) (tr : list rwreq) : Prop := {
  rt_times : forall c d, In (c, d) tr -> cr_issue c <= cr_start c < cr_end c;
  rt_spec : forall c d, In (c, d) tr -> exists t q, nth_error info (cr_task c) = Some t /\ In q (ti_requests t) /\ q_res q = res /\ q_read q = d /\
    cr_end c - cr_start c <= Z.of_N (q_len q);
  rt_number : forall i k t q, nth_error info i = Some t -> In q (ti_requests t) -> q_res q = res ->
    (N.of_nat (length (filter (fun c => is_job i k (fst c) && Bool.eqb (snd c) (q_read q)) tr)) <= q_num q)%N;
  rt_job : forall c d, In (c, d) tr -> rel (cr_task c) (cr_job c) <= cr_issue c /\ cr_end c <= comp (cr_task c) (cr_job c);
  rt_cpu : forall c d t, In (c, d) tr -> nth_error info (cr_task c) = Some t -> (N.of_nat (cr_cpu c) < available procs irq (ti_cluster t))%N;
  rt_nonpreemptive : ForallOrdPairs (fun a b => forall t u, nth_error info (cr_task (fst a)) = Some t -> nth_error info (cr_task (fst b)) = Some u ->
    ti_cluster t = ti_cluster u -> cr_cpu (fst a) = cr_cpu (fst b) -> apart (fst a) (fst b)) tr;
  rt_sequential : ForallOrdPairs (fun a b => cr_task (fst a) = cr_task (fst b) -> apart (fst a) (fst b)) tr }.

(** ** Phase-fair locks *)

Record phase_fair_execution (info : list taskinfo) (procs : N) (irq : option nat) (rel comp : nat -> nat -> Z) (res : nat) (tr : list rwreq) : Prop := {
  pf_trace : rw_trace info procs irq rel comp res tr;
  (** readers and writers exclude each other *)
  pf_exclusive : forall r w, In (r, true) tr -> In (w, false) tr -> cr_end r <= cr_start w \/ cr_end w <= cr_start r;
  (** writers are served in FIFO order, one at a time *)
  pf_writers : ForallOrdPairs (fun a b => snd a = false -> snd b = false -> cr_issue (fst a) <= cr_issue (fst b) /\ cr_end (fst a) <= cr_start (fst b)) tr;
  (** a writer waits only while the lock is held *)
  pf_write_waits : forall b t, In (b, false) tr -> waits b t -> exists a d, In (a, d) tr /\ holds a t;
  (** a reader waits only for a writer that holds the lock, or for one that waits for readers *)
  pf_read_waits : forall b t, In (b, true) tr -> waits b t ->
    (exists a, In (a, false) tr /\ holds a t) \/ exists r w, In (r, true) tr /\ In (w, false) tr /\ holds r t /\ waits w t;
  (** a waiting reader is admitted when the next writer completes *)
  pf_one_writer : forall b w, In (b, true) tr -> In (w, false) tr -> cr_issue b < cr_end w -> cr_start b <= cr_end w;
  (** a reader does not overtake a waiting writer, except at the end of a writer phase *)
  pf_no_joining : forall b w, In (b, true) tr -> In (w, false) tr -> cr_issue w < cr_start b < cr_start w -> exists a, In (a, false) tr /\ cr_end a = cr_start b }.

(** ** Task-fair locks: one FIFO queue, consecutive readers share *)

Definition conflict (a b : rwreq) : Prop := snd a && snd b = false.

(** The requests are listed in queue order. *)
Record task_fair_execution (info : list taskinfo) (procs : N) (irq : option nat) (rel comp : nat -> nat -> Z) (res : nat) (tr : list rwreq) : Prop := {
  tf_trace : rw_trace info procs irq rel comp res tr;
  tf_fifo : ForallOrdPairs (fun a b => cr_issue (fst a) <= cr_issue (fst b) /\ (conflict a b -> cr_end (fst a) <= cr_start (fst b))) tr;
  (** a request waits only for earlier conflicting requests *)
  tf_waits : forall pre b post, tr = pre ++ b :: post -> forall t, waits (fst b) t -> exists a, In a pre /\ conflict a b /\ t < cr_end (fst a) }.

(** The mutex model of a reader-writer model: one bound per resource that covers
    the reads and the writes. *)
Definition num_requests (t : taskinfo) (res : nat) : N :=
  fold_right (fun q s => if Nat.eqb (q_res q) res then (q_num q + s)%N else s) 0%N (ti_requests t).

Definition mutex_cover (t m : taskinfo) : Prop :=
  ti_id m = ti_id t /\ ti_cluster m = ti_cluster t /\ ti_period m = ti_period t /\ ti_response m = ti_response t /\
  forall q, In q (ti_requests t) -> exists x, In x (ti_requests m) /\ q_res x = q_res q /\ (q_len q <= q_len x)%N /\ (num_requests t (q_res q) <= q_num x)%N.

(** ** Selections with limits per task, per cluster and overall *)

Definition from_task (cont : list rbound) (k : nat) (p : nat * N) : bool :=
  match nth_error cont (fst p) with Some r => Nat.eqb (ti_id (rb_task r)) k | None => false end.

Definition from_cluster (cont : list rbound) (c : nat) (p : nat * N) : bool :=
  match nth_error cont (fst p) with Some r => Nat.eqb (ti_cluster (rb_task r)) c | None => false end.

(** A selection names requests by their position in the list of request bounds. *)
Record limited_selection (cont : list rbound) (tsk : nat) (interval per_task : N) (per_cluster : nat -> N) (max_total : N) (sel : list (nat * N)) : Prop := {
  ls_sources : forall k l, In (k, l) sel -> exists r, nth_error cont k = Some r /\ ti_id (rb_task r) <> tsk /\ (l <= q_len (rb_req r))%N;
  ls_fits : forall k r, nth_error cont k = Some r -> fits r interval (occurrences k sel);
  ls_task : forall i, (N.of_nat (length (filter (from_task cont i) sel)) <= per_task)%N;
  ls_cluster : forall c, (N.of_nat (length (filter (from_cluster cont c) sel)) <= per_cluster c)%N;
  ls_total : (N.of_nat (length sel) <= max_total)%N }.

(** ** Python task sets with sensible parameters: the resource model is a dictionary *)
Definition valid_req (r : requirement) : Prop := 0 <= rr_writes r /\ 0 <= rr_reads r /\ 0 <= rr_wlen r /\ 0 <= rr_rlen r.
Definition valid_py (t : pytask) : Prop := (0 < py_period t)%N /\ NoDup (map rr_id (py_resmodel t)) /\ forall r, In r (py_resmodel t) -> valid_req r.
