(** Model of the blocking-bound library: native/src/sharedres.cpp,
    native/include/{sharedres_types,blocking}.h and, in native/src/blocking/,
    clust-omlp.cpp, part-omlp.cpp, global-omlp.cpp, global-fmlp.cpp and
    msrp-holistic.cpp.  Unsigned machine integers are unbounded naturals (no
    wrap-around); a pointer to a task is the index of the task; std::sort is an
    insertion sort (it is not stable, but only the lengths matter); a division
    by a period of zero, which traps, is zero.  Definitions only. *)
From Coq Require Import NArith List Bool.
Import ListNotations.
Open Scope N_scope.

(** UNLIMITED = UINT_MAX (sharedres.cpp:18) *)
Definition UNLIMITED : N := 4294967295.

(** RequestBound without its task (sharedres_types.h:23-46) *)
Record reqspec := Req { q_res : nat; q_num : N; q_len : N; q_read : bool }.

(** TaskInfo (sharedres_types.h:69-80); ti_id is the index assigned by add_task (sharedres_types.h:283-285) *)
Record taskinfo := TI {
  ti_id : nat; ti_prio : N; ti_period : N; ti_deadline : N; ti_response : N;
  ti_cluster : nat; ti_cost : N; ti_requests : list reqspec }.

(** RequestBound with the task it belongs to (sharedres_types.h:23-64) *)
Record rbound := RB { rb_task : taskinfo; rb_req : reqspec }.

(** divide_with_ceil (math-helper.h:6-14) *)
Definition divide_with_ceil (numer denom : N) : N :=
  if numer mod denom =? 0 then numer / denom else numer / denom + 1.

(** TaskInfo::get_max_num_jobs (sharedres.cpp:61-66) *)
Definition get_max_num_jobs (t : taskinfo) (interval : N) : N := divide_with_ceil (interval + ti_response t) (ti_period t).

(** TaskInfo::uni_fp_local_get_max_num_jobs (sharedres.cpp:68-73) *)
Definition uni_fp_local_get_max_num_jobs (t : taskinfo) (interval : N) : N := divide_with_ceil interval (ti_period t).

(** RequestBound::get_max_num_requests (sharedres.cpp:75-78) *)
Definition get_max_num_requests (r : rbound) (interval : N) : N := get_max_num_jobs (rb_task r) interval * q_num (rb_req r).

(** RequestBound::get_request_length, get_resource_id (sharedres_types.h:55-57) *)
Definition rb_len (r : rbound) : N := q_len (rb_req r).
(** sharedres_types.h:55 *)
Definition rb_res (r : rbound) : nat := q_res (rb_req r).

(** Interference (sharedres_types.h:373-402) *)
Record interf := Inter { i_count : N; i_len : N }.
(** Interference() (sharedres_types.h:378) *)
Definition inter0 : interf := Inter 0 0.
(** operator+ and operator+= (sharedres_types.h:381-394) *)
Definition iadd (a b : interf) : interf := Inter (i_count a + i_count b) (i_len a + i_len b).
(** operator< (sharedres_types.h:396-401) *)
Definition ilt (a b : interf) : bool := (i_len a <? i_len b) || ((i_len a =? i_len b) && (i_count a <? i_count b)).
(** std::max (used at sharedres_types.h:442, 454; sharedres.cpp:490) *)
Definition imax (a b : interf) : interf := if ilt a b then b else a.
(** std::min (used at rw-task-fair.cpp:219-220) *)
Definition imin (a b : interf) : interf := if ilt b a then b else a.

(** The loop that grows a vector of vectors and appends to one entry
    (sharedres.cpp:101-104, 135-138, 155-158) *)
Fixpoint push_at {A} (n : nat) (a : A) (v : list (list A)) : list (list A) :=
  match n, v with
  | O, [] => [[a]]
  | O, l :: r => (l ++ [a]) :: r
  | S k, [] => [] :: push_at k a []
  | S k, l :: r => l :: push_at k a r
  end.

(** split_by_cluster (sharedres.cpp:91-106) *)
Definition split_by_cluster (info : list taskinfo) (num_cpus : nat) : list (list taskinfo) :=
  fold_left (fun clusters t => push_at (ti_cluster t) t clusters) info (repeat [] num_cpus).

(** all requests of the tasks, in order: the nested loops of split_by_resource
    (sharedres.cpp:126-132, 146-152) *)
Definition all_requests (tasks : list taskinfo) : list rbound :=
  concat (map (fun t => map (RB t) (ti_requests t)) tasks).

(** split_by_resource on tasks and on a cluster (sharedres.cpp:124-161) *)
Definition split_by_resource (tasks : list taskinfo) : list (list rbound) :=
  fold_left (fun res r => push_at (rb_res r) r res) (all_requests tasks) [].

(** split_by_resource on clusters (sharedres.cpp:163-171) *)
Definition split_clusters_by_resource (clusters : list (list taskinfo)) : list (list (list rbound)) :=
  map split_by_resource clusters.

(** insertion for the sort below (sharedres.cpp:216-220) *)
Fixpoint insert_len {A} (len : A -> N) (x : A) (l : list A) : list A :=
  match l with
  | [] => [x]
  | y :: r => if len y <=? len x then x :: l else y :: insert_len len x r
  end.
(** sort_by_request_length: decreasing lengths (sharedres.cpp:216-236) *)
Fixpoint sort_len {A} (len : A -> N) (l : list A) : list A :=
  match l with [] => [] | x :: r => insert_len len x (sort_len len r) end.
(** sort_by_request_length on a contention set (sharedres.cpp:222-225) *)
Definition sort_by_request_length (cs : list rbound) : list rbound := sort_len rb_len cs.
(** sharedres.cpp:238-241 *)
Definition sort_resources (res : list (list rbound)) : list (list rbound) := map sort_by_request_length res.
(** sharedres.cpp:243-246 *)
Definition sort_cluster_resources (res : list (list (list rbound))) : list (list (list rbound)) := map sort_resources res.

(** determine_priority_ceilings (sharedres.cpp:248-266) *)
Definition ceiling (cs : list rbound) : N := fold_left (fun c r => N.min c (ti_prio (rb_task r))) cs UNLIMITED.
(** get_priority_ceilings (sharedres.cpp:268-277) *)
Definition get_priority_ceilings (info : list taskinfo) : list N := map ceiling (split_by_resource info).

(** get_local_resources (sharedres.cpp:279-307): (accessed_in, locals) as association and list *)
Definition access_step (st : list (nat * nat) * list nat) (r : rbound) : list (nat * nat) * list nat :=
  let '(acc, locals) := st in
  match find (fun p => Nat.eqb (fst p) (rb_res r)) acc with
  | None => ((rb_res r, ti_cluster (rb_task r)) :: acc, rb_res r :: locals)
  | Some p => if negb (Nat.eqb (snd p) (ti_cluster (rb_task r)))
              then (acc, filter (fun x => negb (Nat.eqb x (rb_res r))) locals) else st
  end.
(** sharedres.cpp:279-307 *)
Definition get_local_resources (info : list taskinfo) : list nat :=
  snd (fold_left access_step (all_requests info) ([], [])).

(** extract_resources (sharedres.cpp:309-354): the copied task has no cost, an
    implicit deadline and only write requests *)
Definition extract_resources (info : list taskinfo) (locals : list nat) (want_local : bool) : list taskinfo :=
  map (fun t => TI (ti_id t) (ti_prio t) (ti_period t) (ti_period t) (ti_response t) (ti_cluster t) 0
         (map (fun q => Req (q_res q) (q_num q) (q_len q) false)
            (filter (fun q => Bool.eqb (existsb (Nat.eqb (q_res q)) locals) want_local) (ti_requests t)))) info.

(** the loop of bound_blocking (sharedres.cpp:376-402); [excluded] is the test at
    lines 384-385 (or 425-427, with the sense inverted) *)
Fixpoint bb_loop (excluded : taskinfo -> bool) (interval per_source : N) (cont : list rbound) (remaining : N) (inter : interf) : interf :=
  match cont with
  | [] => inter
  | req :: r =>
    if remaining =? 0 then inter
    else if negb (excluded (rb_task req)) then
      let num := N.min (get_max_num_requests req interval) per_source in
      let num := N.min num remaining in
      bb_loop excluded interval per_source r (remaining - num) (Inter (i_count inter + num) (i_len inter + num * rb_len req))
    else bb_loop excluded interval per_source r remaining inter
  end.

(** bound_blocking with a minimum priority (sharedres.cpp:360-405) *)
Definition bound_blocking (cont : list rbound) (interval max_total per_source : N) (exclude_tsk : nat) (min_priority : N) : interf :=
  bb_loop (fun t => Nat.eqb (ti_id t) exclude_tsk || (ti_prio t <? min_priority)) interval per_source cont max_total inter0.

(** bound_blocking with cluster exclusion (sharedres.cpp:407-443) *)
Definition bound_blocking_cluster (cont : list rbound) (interval max_total per_source : N) (exclude_whole_cluster : bool) (exclude_tsk : taskinfo) : interf :=
  bb_loop (fun t => Nat.eqb (ti_id t) (ti_id exclude_tsk) || (exclude_whole_cluster && Nat.eqb (ti_cluster t) (ti_cluster exclude_tsk)))
    interval per_source cont max_total inter0.

(** bound_blocking_all_clusters (sharedres.cpp:445-470); a limit is (max_total_requests, max_requests_per_source) *)
Definition bound_blocking_all_clusters (clusters : list (list (list rbound))) (limits : list (N * N)) (res_id : nat) (interval : N) (exclude_tsk : nat) : interf :=
  fold_left (fun inter p =>
    let '(resources, (total, src)) := p in
    if Nat.ltb res_id (length resources)
    then iadd inter (bound_blocking (nth res_id resources []) interval total src exclude_tsk 0) else inter)
    (combine clusters limits) inter0.

(** np_fifo_limits (sharedres.cpp:515-541); dedicated_irq == NO_CPU is None *)
Definition np_fifo_limits (tsk : taskinfo) (num_clusters : nat) (procs_per_cluster issued : N) (dedicated_irq : option nat) : list (N * N) :=
  map (fun idx =>
    let parallelism := procs_per_cluster in
    let parallelism := if match dedicated_irq with Some i => Nat.eqb idx i | None => false end then parallelism - 1 else parallelism in
    let parallelism := if negb (parallelism =? 0) && Nat.eqb (ti_cluster tsk) idx then parallelism - 1 else parallelism in
    (issued * parallelism, issued)) (seq 0 num_clusters).

(** np_fifo_per_resource (sharedres.cpp:543-557) *)
Definition np_fifo_per_resource (tsk : taskinfo) (clusters : list (list (list rbound))) (procs_per_cluster : N) (res_id : nat) (issued : N) (dedicated_irq : option nat) : interf :=
  bound_blocking_all_clusters clusters (np_fifo_limits tsk (length clusters) procs_per_cluster issued dedicated_irq) res_id (ti_response tsk) (ti_id tsk).

(** BlockingBounds, one entry (sharedres_types.h:404-425) *)
Record bounds := BB { bb_block : interf; bb_span : interf; bb_arrival : interf; bb_remote : interf; bb_local : interf }.

(** max_local_request_span (sharedres.cpp:472-496) *)
Definition max_local_request_span (tsk : taskinfo) (tasks : list (taskinfo * bounds)) : interf :=
  fold_left (fun span p =>
    let '(t, b) := p in
    if negb (Nat.eqb (ti_id t) (ti_id tsk)) && (Nat.eqb (ti_cluster t) (ti_cluster tsk) && (ti_prio tsk <=? ti_prio t))
    then imax span (bb_span b) else span) tasks inter0.

(** charge_arrival_blocking (sharedres.cpp:498-510); spans are not changed by the loop *)
Definition charge_arrival_blocking (tasks : list (taskinfo * bounds)) : list bounds :=
  map (fun p => let '(t, b) := p in
    let inf := max_local_request_span t tasks in
    BB (iadd (bb_block b) inf) (bb_span b) inf (bb_remote b) (bb_local b)) tasks.

(** clustered_omlp_bounds, one task (clust-omlp.cpp:34-68): (bterm, span).  The
    span is computed without dedicated_irq if more than one request is issued
    (clust-omlp.cpp:56-58) *)
Definition clustered_omlp_step (procs_per_cluster : N) (dedicated_irq : option nat) (resources : list (list (list rbound))) (tsk : taskinfo)
    (st : interf * interf) (req : reqspec) : interf * interf :=
  let '(bterm, span) := st in
  let blocking := np_fifo_per_resource tsk resources procs_per_cluster (q_res req) (q_num req) dedicated_irq in
  let blocking1 := if negb (q_num req =? 1) then np_fifo_per_resource tsk resources procs_per_cluster (q_res req) 1 None else blocking in
  (iadd bterm blocking, imax span (iadd blocking1 (Inter 1 (q_len req)))).

(** the split and sorted requests (clust-omlp.cpp:11-22) *)
Definition cluster_contention (info : list taskinfo) : list (list (list rbound)) :=
  sort_cluster_resources (split_clusters_by_resource (split_by_cluster info 0)).

(** clustered_omlp_bounds (clust-omlp.cpp:7-76) *)
Definition clustered_omlp_bounds (info : list taskinfo) (procs_per_cluster : N) (dedicated_irq : option nat) : list bounds :=
  let resources := cluster_contention info in
  charge_arrival_blocking (map (fun tsk =>
    let '(bterm, span) := fold_left (clustered_omlp_step procs_per_cluster dedicated_irq resources tsk) (ti_requests tsk) (inter0, inter0) in
    (tsk, BB bterm span inter0 bterm inter0)) info).

(** task_fair_mutex_bounds (clust-omlp.cpp:78-85) *)
Definition task_fair_mutex_bounds := clustered_omlp_bounds.

(** part_omlp_bounds, one request (part-omlp.cpp:38-62) *)
Definition part_omlp_step (resources : list (list (list rbound))) (tsk : taskinfo) (st : interf * interf) (req : reqspec) : interf * interf :=
  let '(bterm, span) := st in
  let blocking := np_fifo_per_resource tsk resources 1 (q_res req) (q_num req) None in
  let blocking1 := if negb (q_num req =? 1) then np_fifo_per_resource tsk resources 1 (q_res req) 1 None else blocking in
  (iadd bterm blocking, imax span (iadd blocking1 (Inter 1 (q_len req)))).

(** part_omlp_bounds (part-omlp.cpp:6-71) *)
Definition part_omlp_bounds (info : list taskinfo) : list bounds :=
  let resources := cluster_contention info in
  charge_arrival_blocking (map (fun tsk =>
    let '(bterm, span) := fold_left (part_omlp_step resources tsk) (ti_requests tsk) (inter0, inter0) in
    (tsk, BB bterm span inter0 inter0 inter0)) info).

(** global_omlp_bounds (global-omlp.cpp:6-60) *)
Definition global_omlp_bounds (info : list taskinfo) (num_procs : N) : list interf :=
  let resources := sort_resources (split_by_resource info) in
  map (fun tsk =>
    fold_left (fun bterm req =>
      let cs := nth (q_res req) resources [] in
      let num_sources := N.of_nat (length cs) in
      let issued := q_num req in
      let '(total_limit, per_src_limit) :=
        if num_sources <=? num_procs + 1 then ((num_sources - 1) * issued, issued)
        else ((2 * num_procs - 1) * issued, 2 * issued) in
      iadd bterm (bound_blocking cs (ti_response tsk) total_limit per_src_limit (ti_id tsk) 0)) (ti_requests tsk) inter0) info.

(** global_fmlp_bounds (global-fmlp.cpp:7-52) *)
Definition global_fmlp_bounds (info : list taskinfo) : list interf :=
  let resources := sort_resources (split_by_resource info) in
  let num_tasks := N.of_nat (length info) in
  map (fun tsk =>
    fold_left (fun bterm req =>
      let cs := nth (q_res req) resources [] in
      let issued := q_num req in
      iadd bterm (bound_blocking cs (ti_response tsk) ((num_tasks - 1) * issued) issued (ti_id tsk) 0)) (ti_requests tsk) inter0) info.

(** add_blocking (clust-omlp.cpp:87-120): the added limited request bounds; min_priority is 0 in all calls *)
Fixpoint add_blocking (interval per_source : N) (exclude_tsk : nat) (cont : list rbound) (remaining : N) : list (rbound * N) :=
  match cont with
  | [] => []
  | req :: r =>
    if remaining =? 0 then []
    else if negb (Nat.eqb (ti_id (rb_task req)) exclude_tsk) then
      let num := N.min (get_max_num_requests req interval) per_source in
      let num := N.min num remaining in
      (req, num) :: add_blocking interval per_source exclude_tsk r (remaining - num)
    else add_blocking interval per_source exclude_tsk r remaining
  end.

(** contention_from_all_clusters (clust-omlp.cpp:124-149) *)
Definition contention_from_all_clusters (clusters : list (list (list rbound))) (limits : list (N * N)) (res_id : nat) (interval : N) (exclude_tsk : nat) : list (rbound * N) :=
  concat (map (fun p =>
    let '(resources, (total, src)) := p in
    if Nat.ltb res_id (length resources) then add_blocking interval src exclude_tsk (nth res_id resources []) total else [])
    (combine clusters limits)).

(** np_fifo_per_resource_contention (clust-omlp.cpp:151-165) *)
Definition np_fifo_per_resource_contention (tsk : taskinfo) (clusters : list (list (list rbound))) (procs_per_cluster : N) (res_id : nat) (issued : N) (dedicated_irq : option nat) : list (rbound * N) :=
  contention_from_all_clusters clusters (np_fifo_limits tsk (length clusters) procs_per_cluster issued dedicated_irq) res_id (ti_response tsk) (ti_id tsk).

(** bound_blocking on a limited contention set (clust-omlp.cpp:168-189) *)
Fixpoint bb_limited (lcs : list (rbound * N)) (remaining : N) (inter : interf) : interf :=
  match lcs with
  | [] => inter
  | (req, limit) :: r =>
    if remaining =? 0 then inter
    else let num := N.min limit remaining in
         bb_limited r (remaining - num) (Inter (i_count inter + num) (i_len inter + num * rb_len req))
  end.

(** sort_by_request_length on a limited contention set (sharedres.cpp:227-236) *)
Definition sort_limited (lcs : list (rbound * N)) : list (rbound * N) := sort_len (fun p => rb_len (fst p)) lcs.

(** clustered_kx_omlp_bounds, one request (clust-omlp.cpp:224-262) *)
Definition kx_step (num_cpus procs_per_cluster : N) (replicas : nat -> N) (dedicated_irq : option nat) (resources : list (list (list rbound))) (tsk : taskinfo)
    (st : interf * interf) (req : reqspec) : interf * interf :=
  let '(bterm, span) := st in
  let max_total_once := divide_with_ceil num_cpus (replicas (q_res req)) - 1 in
  let lcs := sort_limited (np_fifo_per_resource_contention tsk resources procs_per_cluster (q_res req) (q_num req) dedicated_irq) in
  let blocking := bb_limited lcs (max_total_once * q_num req) inter0 in
  let blocking1 :=
    if negb (q_num req =? 1)
    then bb_limited (sort_limited (np_fifo_per_resource_contention tsk resources procs_per_cluster (q_res req) 1 dedicated_irq)) max_total_once inter0
    else blocking in
  (iadd bterm blocking, imax span (iadd blocking1 (Inter 1 (q_len req)))).

(** clustered_kx_omlp_bounds (clust-omlp.cpp:192-273); [replicas] is ReplicaInfo (sharedres_types.h:347-371) *)
Definition clustered_kx_omlp_bounds (info : list taskinfo) (replicas : nat -> N) (procs_per_cluster : N) (dedicated_irq : option nat) : list bounds :=
  let clusters := split_by_cluster info 0 in
  let num_cpus := N.of_nat (length clusters) * procs_per_cluster - (match dedicated_irq with Some _ => 1 | None => 0 end) in
  let resources := cluster_contention info in
  charge_arrival_blocking (map (fun tsk =>
    let '(bterm, span) := fold_left (kx_step num_cpus procs_per_cluster replicas dedicated_irq resources tsk) (ti_requests tsk) (inter0, inter0) in
    (tsk, BB bterm span inter0 inter0 inter0)) info).

(** pcp_blocking (msrp-holistic.cpp:61-106): the blocking of one task.  The
    cluster of the task is the set of tasks with the same cluster index *)
Definition pcp_blocking_of (info : list taskinfo) (tsk : taskinfo) : interf :=
  let ceilings := get_priority_ceilings info in
  fold_left (fun b other =>
    if negb (Nat.eqb (ti_id tsk) (ti_id other)) && (ti_prio tsk <=? ti_prio other) then
      fold_left (fun b q => if nth (q_res q) ceilings UNLIMITED <=? ti_prio tsk then imax b (Inter 1 (q_len q)) else b) (ti_requests other) b
    else b) (nth (ti_cluster tsk) (split_by_cluster info 0) []) inter0.

(** msrp_bounds_holistic (msrp-holistic.cpp:10-58) *)
Definition msrp_bounds_holistic (info : list taskinfo) (dedicated_irq : option nat) : list bounds :=
  let locals := get_local_resources info in
  let linfo := extract_resources info locals true in
  let ginfo := extract_resources info locals false in
  map (fun p =>
    let '(tsk, b) := p in
    let b_pcp := i_len (pcp_blocking_of linfo tsk) in
    let b_spin := i_len (bb_arrival b) in
    if b_spin <? b_pcp
    then BB (Inter (i_count (bb_block b)) (i_len (bb_block b) + (b_pcp - b_spin))) (bb_span b) (Inter 1 b_pcp) (bb_remote b) (bb_local b)
    else b) (combine linfo (task_fair_mutex_bounds ginfo 1 dedicated_irq)).
