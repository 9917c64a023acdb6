(** Model of the reader-writer lock bounds: native/src/blocking/rw-phase-fair.cpp,
    native/src/blocking/rw-task-fair.cpp and their helpers in
    native/src/sharedres.cpp, and of the conversion in schedcat/locking/bounds.py.
    The conventions are those of ModelLocking.v.  Definitions only. *)
From Coq Require Import NArith ZArith List Bool.
From Verif Require Import ModelLocking ModelResources.
Import ListNotations.
Open Scope N_scope.

(** split_by_type (sharedres.cpp:173-186): the reads and the writes of a contention set, in order *)
Definition reads_of (cs : list rbound) : list rbound := filter (fun r => q_read (rb_req r)) cs.
(** sharedres.cpp:173-186 *)
Definition writes_of (cs : list rbound) : list rbound := filter (fun r => negb (q_read (rb_req r))) cs.

(** RWCount (rw-blocking.h:16-29) *)
Record rwcount := RWC { rw_res : nat; rw_reads : N; rw_writes : N; rw_rlen : N; rw_wlen : N }.

(** the loop that grows the counts (sharedres.cpp:567-568) *)
Definition grow_counts (counts : list rwcount) (res_id : nat) : list rwcount :=
  counts ++ map (fun i => RWC i 0 0 0 0) (seq (length counts) (S res_id - length counts)).

(** assignment to an element of a vector (sharedres.cpp:570-579) *)
Fixpoint update_at {A} (n : nat) (f : A -> A) (v : list A) : list A :=
  match n, v with
  | _, [] => []
  | O, x :: r => f x :: r
  | S k, x :: r => x :: update_at k f r
  end.

(** one request (sharedres.cpp:563-580); the length is that of the last request of the type *)
Definition merge_step (counts : list rwcount) (req : reqspec) : list rwcount :=
  update_at (q_res req) (fun c =>
    if q_read req
    then RWC (rw_res c) (rw_reads c + q_num req) (rw_writes c) (q_len req) (rw_wlen c)
    else RWC (rw_res c) (rw_reads c) (rw_writes c + q_num req) (rw_rlen c) (q_len req))
    (grow_counts counts (q_res req)).

(** merge_rw_requests (sharedres.cpp:561-581) *)
Definition merge_rw_requests (tsk : taskinfo) : list rwcount := fold_left merge_step (ti_requests tsk) [].

(** the limits of pf_writer_fifo (rw-phase-fair.cpp:16-42) *)
Definition pf_writer_limits (tsk : taskinfo) (num_clusters : nat) (num_writes num_reads procs_per_cluster : N) (dedicated_irq : option nat) : list (N * N) :=
  map (fun idx =>
    let parallelism := procs_per_cluster in
    let parallelism := if match dedicated_irq with Some i => Nat.eqb idx i | None => false end then parallelism - 1 else parallelism in
    let parallelism := if negb (parallelism =? 0) && Nat.eqb (ti_cluster tsk) idx then parallelism - 1 else parallelism in
    let total := if negb (parallelism =? 0) then num_reads + num_writes * parallelism else 0 in
    (total, num_reads + num_writes)) (seq 0 num_clusters).

(** pf_writer_fifo (rw-phase-fair.cpp:8-52) *)
Definition pf_writer_fifo (tsk : taskinfo) (writes : list (list (list rbound))) (num_writes num_reads : N) (res_id : nat) (procs_per_cluster : N) (dedicated_irq : option nat) : interf :=
  bound_blocking_all_clusters writes (pf_writer_limits tsk (length writes) num_writes num_reads procs_per_cluster dedicated_irq) res_id (ti_response tsk) (ti_id tsk).

(** pf_reader_all (rw-phase-fair.cpp:54-76) *)
Definition pf_reader_all (tsk : taskinfo) (all_reads : list (list rbound)) (num_writes num_wblock num_reads : N) (res_id : nat) (procs_per_cluster num_procs : N) : interf :=
  let rlimit := N.min (num_wblock + num_writes) (num_reads + num_writes * (num_procs - 1)) in
  bound_blocking_cluster (nth res_id all_reads []) (ti_response tsk) rlimit rlimit (procs_per_cluster =? 1) tsk.

(** all_reads: the sorted read requests of all tasks (rw-phase-fair.cpp:92-99, rw-task-fair.cpp:115-124) *)
Definition all_reads_of (info : list taskinfo) : list (list rbound) := sort_resources (map reads_of (split_by_resource info)).

(** writes: the sorted write requests of each cluster (rw-phase-fair.cpp:82-103, rw-task-fair.cpp:104-128) *)
Definition cluster_writes (info : list taskinfo) : list (list (list rbound)) := map (map writes_of) (cluster_contention info).

(** the direct blocking of one resource, writers plus readers (rw-phase-fair.cpp:133-143);
    also the single requests at 151-161 and 176-186 *)
Definition pf_blocking (procs_per_cluster num_procs : N) (dedicated_irq : option nat) (writes : list (list (list rbound))) (all_reads : list (list rbound)) (tsk : taskinfo)
    (res_id : nat) (num_writes num_reads : N) : interf * interf :=
  let wblocking := pf_writer_fifo tsk writes num_writes num_reads res_id procs_per_cluster dedicated_irq in
  let rblocking := pf_reader_all tsk all_reads num_writes (i_count wblocking) num_reads res_id procs_per_cluster num_procs in
  (wblocking, rblocking).

(** one resource (rw-phase-fair.cpp:125-216): (bterm, span) *)
Definition pf_step (procs_per_cluster num_procs : N) (dedicated_irq : option nat) (writes : list (list (list rbound))) (all_reads : list (list rbound)) (tsk : taskinfo)
    (st : interf * interf) (rw : rwcount) : interf * interf :=
  let '(bterm, span) := st in
  if (rw_reads rw =? 0) && (rw_writes rw =? 0) then st
  else
    let bl := pf_blocking procs_per_cluster num_procs dedicated_irq writes all_reads tsk (rw_res rw) in
    let '(wblocking, rblocking) := bl (rw_writes rw) (rw_reads rw) in
    let '(wblocking_w1, rblocking_w1) :=
      if negb (rw_writes rw =? 0) && (negb (rw_writes rw =? 1) || negb (rw_reads rw =? 0)) then bl 1 0
      else if negb (rw_writes rw =? 0) then (wblocking, rblocking) else (inter0, inter0) in
    let '(wblocking_r1, rblocking_r1) :=
      if negb (rw_reads rw =? 0) && (negb (rw_reads rw =? 1) || negb (rw_writes rw =? 0)) then bl 0 1
      else if negb (rw_reads rw =? 0) then (wblocking, rblocking) else (inter0, inter0) in
    let wblocking_w1 := if negb (rw_writes rw =? 0) then Inter (i_count wblocking_w1 + 1) (i_len wblocking_w1 + rw_wlen rw) else wblocking_w1 in
    let rblocking_r1' := if negb (rw_reads rw =? 0) then Inter (i_count rblocking_r1) (i_len rblocking_r1 + rw_rlen rw) else rblocking_r1 in
    let wblocking_r1' := if negb (rw_reads rw =? 0) then Inter (i_count wblocking_r1 + 1) (i_len wblocking_r1) else wblocking_r1 in
    (iadd bterm (iadd wblocking rblocking),
     imax (imax span (iadd wblocking_w1 rblocking_w1)) (iadd wblocking_r1' rblocking_r1')).

(** clustered_rw_omlp_bounds (rw-phase-fair.cpp:78-224) *)
Definition clustered_rw_omlp_bounds (info : list taskinfo) (procs_per_cluster : N) (dedicated_irq : option nat) : list bounds :=
  let writes := cluster_writes info in
  let all_reads := all_reads_of info in
  let num_procs := procs_per_cluster * N.of_nat (length (split_by_cluster info 0)) in
  charge_arrival_blocking (map (fun tsk =>
    let '(bterm, span) := fold_left (pf_step procs_per_cluster num_procs dedicated_irq writes all_reads tsk) (merge_rw_requests tsk) (inter0, inter0) in
    (tsk, BB bterm span inter0 inter0 inter0)) info).

(** phase_fair_rw_bounds (rw-phase-fair.cpp:226-233) *)
Definition phase_fair_rw_bounds := clustered_rw_omlp_bounds.

(** a hash map of counters with a default for keys that are not present
    (rw-task-fair.cpp:17-23, 38-56) *)
Definition set_counter (f : nat -> N) (k : nat) (v : N) : nat -> N := fun x => if Nat.eqb x k then v else f x.

(** the loop of bound_blocking_all (rw-task-fair.cpp:25-71) *)
Fixpoint bba_loop (tsk : taskinfo) (cont : list rbound) (task_counter cluster_counter : nat -> N) (max_total : N) (inter : interf) : interf :=
  match cont with
  | [] => inter
  | req :: r =>
    let t := rb_task req in
    if max_total =? 0 then inter
    else if Nat.eqb (ti_id t) (ti_id tsk) then bba_loop tsk r task_counter cluster_counter max_total inter
    else if task_counter (ti_id t) =? 0 then bba_loop tsk r task_counter cluster_counter max_total inter
    else if cluster_counter (ti_cluster t) =? 0 then bba_loop tsk r task_counter cluster_counter max_total inter
    else
      let remaining := N.min (task_counter (ti_id t)) (cluster_counter (ti_cluster t)) in
      let remaining := N.min remaining max_total in
      let num := N.min (get_max_num_requests req (ti_response tsk)) remaining in
      bba_loop tsk r (set_counter task_counter (ti_id t) (task_counter (ti_id t) - num))
        (set_counter cluster_counter (ti_cluster t) (cluster_counter (ti_cluster t) - num)) (max_total - num)
        (Inter (i_count inter + num) (i_len inter + num * rb_len req))
  end.

(** bound_blocking_all (rw-task-fair.cpp:8-74) *)
Definition bound_blocking_all (tsk : taskinfo) (all_reqs : list rbound) (max_remote_requests max_local_requests max_requests max_total : N) : interf :=
  bba_loop tsk all_reqs (fun _ => max_requests) (set_counter (fun _ => max_remote_requests) (ti_cluster tsk) max_local_requests) max_total inter0.

(** tf_reader_all (rw-task-fair.cpp:76-96) *)
Definition tf_reader_all (tsk : taskinfo) (all_reads : list (list rbound)) (num_writes num_wblock num_reads : N) (res_id : nat) (procs_per_cluster : N) : interf :=
  let num_reqs := num_reads + num_writes in
  let max_reader_phases := num_wblock + num_writes in
  let task_limit := N.min max_reader_phases num_reqs in
  bound_blocking_all tsk (nth res_id all_reads []) (num_reqs * procs_per_cluster) (num_reqs * (procs_per_cluster - 1)) task_limit max_reader_phases.

(** one resource (rw-task-fair.cpp:150-221): (bterm, span).  The bounds for a
    single request take the number of blocking writers of all requests
    (rw-task-fair.cpp:194-213) *)
Definition tf_step (procs_per_cluster : N) (dedicated_irq : option nat) (resources_mtx writes : list (list (list rbound))) (all_reads : list (list rbound)) (tsk : taskinfo)
    (st : interf * interf) (rw : rwcount) : interf * interf :=
  let '(bterm, span) := st in
  if (rw_reads rw =? 0) && (rw_writes rw =? 0) then st
  else
    let mtx := np_fifo_per_resource tsk resources_mtx procs_per_cluster (rw_res rw) (rw_reads rw + rw_writes rw) dedicated_irq in
    let mtx_1 := if rw_reads rw + rw_writes rw =? 1 then mtx else np_fifo_per_resource tsk resources_mtx procs_per_cluster (rw_res rw) 1 dedicated_irq in
    let mtx_1 := Inter (i_count mtx_1 + 1) (i_len mtx_1 + N.max (rw_wlen rw) (rw_rlen rw)) in
    let wblocking := np_fifo_per_resource tsk writes procs_per_cluster (rw_res rw) (rw_reads rw + rw_writes rw) dedicated_irq in
    let wblocking_1 := np_fifo_per_resource tsk writes procs_per_cluster (rw_res rw) 1 dedicated_irq in
    let rblocking := tf_reader_all tsk all_reads (rw_writes rw) (i_count wblocking) (rw_reads rw) (rw_res rw) procs_per_cluster in
    let rblocking_w1 :=
      if negb (rw_writes rw =? 0)
      then iadd (tf_reader_all tsk all_reads 1 (i_count wblocking) 0 (rw_res rw) procs_per_cluster) (Inter 1 (rw_wlen rw)) else inter0 in
    let rblocking_r1 :=
      if negb (rw_reads rw =? 0)
      then iadd (tf_reader_all tsk all_reads 0 (i_count wblocking) 1 (rw_res rw) procs_per_cluster) (Inter 1 (rw_rlen rw)) else inter0 in
    (iadd bterm (imin (iadd wblocking rblocking) mtx),
     imax span (imin (iadd wblocking_1 (imax rblocking_w1 rblocking_r1)) mtx_1)).

(** task_fair_rw_bounds (rw-task-fair.cpp:99-229) *)
Definition task_fair_rw_bounds (info info_mtx : list taskinfo) (procs_per_cluster : N) (dedicated_irq : option nat) : list bounds :=
  let resources_mtx := cluster_contention info_mtx in
  let writes := cluster_writes info in
  let all_reads := all_reads_of info in
  charge_arrival_blocking (map (fun tsk =>
    let '(bterm, span) := fold_left (tf_step procs_per_cluster dedicated_irq resources_mtx writes all_reads tsk) (merge_rw_requests tsk) (inter0, inter0) in
    (tsk, BB bterm span inter0 inter0 inter0)) info).

(** the parameters of a Python task that the conversions read (locking/bounds.py:54-66, 77-83);
    the resource model is a dictionary in iteration order *)
Record pytask := PyT { py_period : N; py_response : N; py_deadline : N; py_cluster : nat; py_prio : N; py_cost : N; py_resmodel : list requirement }.

(** the requests of one entry, mutex (locking/bounds.py:68-72) *)
Definition mutex_requests (r : requirement) : list reqspec :=
  if (0 <? max_requests r)%Z then [Req (rr_id r) (Z.to_N (max_requests r)) (Z.to_N (max_length r)) false] else [].

(** the requests of one entry, reader-writer (locking/bounds.py:85-89) *)
Definition rw_requests (r : requirement) : list reqspec :=
  (if (0 <? rr_writes r)%Z then [Req (rr_id r) (Z.to_N (rr_writes r)) (Z.to_N (rr_wlen r)) false] else []) ++
  (if (0 <? rr_reads r)%Z then [Req (rr_id r) (Z.to_N (rr_reads r)) (Z.to_N (rr_rlen r)) true] else []).

(** get_cpp_model with response times (locking/bounds.py:51-73) and get_cpp_model_rw
    (locking/bounds.py:75-90), parameterised by the requests of an entry *)
Definition cpp_model (requests : requirement -> list reqspec) (tasks : list pytask) : list taskinfo :=
  map (fun p => let '(i, t) := p in
    TI i (py_prio t) (py_period t) (py_deadline t) (py_response t) (py_cluster t) (py_cost t) (concat (map requests (py_resmodel t))))
    (combine (seq 0 (length tasks)) tasks).
(** locking/bounds.py:51-73 *)
Definition get_cpp_model := cpp_model mutex_requests.
(** locking/bounds.py:75-90 *)
Definition get_cpp_model_rw := cpp_model rw_requests.
