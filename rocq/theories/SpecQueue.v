(** Specifications of suspension-based locks and of k-exclusion locks: how the
    requests of one resource execute under the global FMLP, the global OMLP and
    the clustered OMLP for replicated resources.  Time is discrete. *)
From Coq Require Import NArith ZArith List Bool.
From Verif Require Import ModelLocking SpecLocking.
Import ListNotations.
Open Scope Z_scope.

(** The number of instants in [lo, hi) at which [p] holds. *)
Definition zrange (lo hi : Z) : list Z := map (fun i => lo + Z.of_nat i) (seq 0 (Z.to_nat (hi - lo))).
Definition instants (p : Z -> bool) (lo hi : Z) : Z := Z.of_nat (length (filter p (zrange lo hi))).

(** The requests for one resource.  [exec c t]: the job that holds the resource
    for request [c] is scheduled at time [t].  The critical section of a request
    executes for at most its declared length, but it may take longer to complete
    because the lock holder can be preempted. *)
Record lock_requests (info : list taskinfo) (rel comp : nat -> nat -> Z) (res : nat) (exec : creq -> Z -> bool) (tr : list creq) : Prop := {
  lr_times : forall c, In c tr -> cr_issue c <= cr_start c <= cr_end c;
  lr_spec : forall c, In c tr -> exists t q, nth_error info (cr_task c) = Some t /\ In q (ti_requests t) /\ q_res q = res /\
    instants (exec c) (cr_start c) (cr_end c) <= Z.of_N (q_len q);
  lr_number : forall i k t q, nth_error info i = Some t -> In q (ti_requests t) -> q_res q = res ->
    (N.of_nat (length (filter (is_job i k) tr)) <= q_num q)%N;
  lr_job : forall c, In c tr -> rel (cr_task c) (cr_job c) <= cr_issue c /\ cr_end c <= comp (cr_task c) (cr_job c);
  (** a task is sequential *)
  lr_sequential : ForallOrdPairs (fun a b => cr_task a = cr_task b -> apart a b) tr }.

(** ** Global FMLP: one FIFO queue and priority inheritance *)

(** [pib b t]: the job that issued [b] is pi-blocked at time [t]: it is waiting
    although its priority would let it execute.  Due to priority inheritance the
    lock holder is scheduled at that time. *)
Record fmlp_execution (info : list taskinfo) (rel comp : nat -> nat -> Z) (res : nat) (exec pib : creq -> Z -> bool) (tr : list creq) : Prop := {
  fm_requests : lock_requests info rel comp res exec tr;
  fm_fifo : ForallOrdPairs (fun a b => cr_issue a <= cr_issue b /\ cr_end a <= cr_start b) tr;
  fm_progress : forall b t, In b tr -> cr_issue b <= t < cr_start b -> pib b t = true ->
    exists a, In a tr /\ cr_start a <= t < cr_end a /\ exec a t = true }.

(** ** Global OMLP: a FIFO queue of [m] entries behind a priority queue *)

(** a request is in the FIFO queue from [enq] until it completes *)
Definition queued (enq : creq -> Z) (t : Z) (a : creq) : bool := (enq a <=? t) && (t <? cr_end a).

(** [prio i k] is the priority of job [k] of task [i]; smaller is higher. *)
Record omlp_execution (info : list taskinfo) (m : N) (rel comp prio : nat -> nat -> Z) (res : nat) (enq : creq -> Z) (exec pib : creq -> Z -> bool) (tr : list creq) : Prop := {
  om_requests : lock_requests info rel comp res exec tr;
  om_enq : forall c, In c tr -> cr_issue c <= enq c <= cr_start c;
  om_fifo : ForallOrdPairs (fun a b => enq a <= enq b /\ cr_end a <= cr_start b) tr;
  (** at most [m] requests are in the FIFO queue *)
  om_capacity : forall t, (N.of_nat (length (filter (queued enq t) tr)) <= m)%N;
  (** a request waits in the priority queue only while the FIFO queue is full *)
  om_full : forall b t, In b tr -> cr_issue b <= t < enq b -> (m <= N.of_nat (length (filter (queued enq t) tr)))%N;
  (** a request that enters the FIFO queue while [b] is in the priority queue was
      waiting there and has a higher priority *)
  om_overtake : ForallOrdPairs (fun a b => cr_issue b < enq a -> cr_issue a < enq a /\ prio (cr_task a) (cr_job a) < prio (cr_task b) (cr_job b)) tr;
  (** a job is pi-blocked only if fewer than [m] jobs with higher priorities are pending *)
  om_blocked : forall b t jobs, In b tr -> cr_issue b <= t < cr_start b -> pib b t = true -> NoDup jobs ->
    (forall i k, In (i, k) jobs -> rel i k <= t < comp i k /\ prio i k < prio (cr_task b) (cr_job b)) -> (N.of_nat (length jobs) < m)%N;
  (** priority inheritance *)
  om_progress : forall b t, In b tr -> cr_issue b <= t < cr_start b -> pib b t = true ->
    exists a, In a tr /\ cr_start a <= t < cr_end a /\ exec a t = true }.

(** The pi-blocking of a job due to its requests for one resource. *)
Definition blocked_time (i k : nat) (pib : creq -> Z -> bool) (tr : list creq) : Z :=
  fold_right (fun c s => if is_job i k c then instants (pib c) (cr_issue c) (cr_start c) + s else s) 0 tr.

(** ... and for several resources *)
Definition total_blocked (i k : nat) (pib : nat -> creq -> Z -> bool) (tr : nat -> list creq) (rs : list nat) : Z :=
  fold_right Z.add 0 (map (fun r => blocked_time i k (pib r) (tr r)) rs).

(** ** k-exclusion: [k] replicas served in FIFO order, at most one outstanding
    request per processor *)

(** [rep c] is the replica that serves the request; the lock holder and the
    waiting jobs occupy their processors (priority donation). *)
Record kx_execution (info : list taskinfo) (procs : N) (irq : option nat) (k : N) (rel comp : nat -> nat -> Z) (res : nat) (rep : creq -> N) (tr : list creq) : Prop := {
  kx_requests : lock_requests info rel comp res (fun _ _ => true) tr;
  kx_fifo : ForallOrdPairs (fun a b => cr_issue a <= cr_issue b /\ cr_start a <= cr_start b) tr;
  kx_replica : ForallOrdPairs (fun a b => rep a = rep b -> cr_end a <= cr_start b) tr;
  (** a request waits only while all replicas are in use *)
  kx_busy : forall b t r, In b tr -> cr_issue b <= t < cr_start b -> (r < k)%N -> exists a, In a tr /\ rep a = r /\ cr_start a <= t < cr_end a;
  kx_cpu : forall c t, In c tr -> nth_error info (cr_task c) = Some t -> (N.of_nat (cr_cpu c) < available procs irq (ti_cluster t))%N;
  kx_donation : ForallOrdPairs (fun a b => forall t u, nth_error info (cr_task a) = Some t -> nth_error info (cr_task b) = Some u ->
    ti_cluster t = ti_cluster u -> cr_cpu a = cr_cpu b -> apart a b) tr }.
