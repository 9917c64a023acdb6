(** Model of the analysis of the partitioned FMLP+: native/src/blocking/fmlp_plus.cpp.
    Conventions as in ModelLocking.v.  Definitions only. *)
From Coq Require Import NArith List Bool.
From Verif Require Import ModelLocking.
Import ListNotations.
Open Scope N_scope.

(** all_from_cluster (fmlp_plus.cpp:10-22) *)
Definition all_from_cluster (cluster : list taskinfo) : list rbound := all_requests cluster.
(** all_per_cluster (fmlp_plus.cpp:24-32) *)
Definition all_per_cluster (clusters : list (list taskinfo)) : list (list rbound) := map all_from_cluster clusters.

(** derive_task_contention on a cluster: one contention set per task (fmlp_plus.cpp:34-53) *)
Definition task_contention (cluster : list taskinfo) : list (list rbound) := map (fun tsk => map (RB tsk) (ti_requests tsk)) cluster.
(** derive_task_contention (fmlp_plus.cpp:55-59) *)
Definition derive_task_contention (clusters : list (list taskinfo)) : list (list (list rbound)) := map task_contention clusters.

(** one cluster in the inner loop of pfmlp_count_direct_blocking (fmlp_plus.cpp:84-90) *)
Definition count_in_cluster (tsk : taskinfo) (req : reqspec) (resources : list (list rbound)) : interf :=
  if Nat.ltb (q_res req) (length resources)
  then bound_blocking (nth (q_res req) resources []) (ti_response tsk) UNLIMITED (q_num req) (ti_id tsk) 0 else inter0.
(** pfmlp_count_direct_blocking (fmlp_plus.cpp:63-93): the counts per cluster, which are zero at first (fmlp_plus.cpp:318) *)
Definition pfmlp_count_direct_blocking (tsk : taskinfo) (resources : list (list (list rbound))) : list interf :=
  map (fun res => fold_left (fun count req => iadd count (count_in_cluster tsk req res)) (ti_requests tsk) inter0) resources.

(** counts[res_id] += n in a vector that grows (fmlp_plus.cpp:112-115) *)
Fixpoint add_at (n : nat) (a : N) (v : list N) : list N :=
  match n, v with
  | O, [] => [a]
  | O, x :: r => x + a :: r
  | S k, [] => 0 :: add_at k a []
  | S k, x :: r => x :: add_at k a r
  end.
(** derive_access_counts on a cluster (fmlp_plus.cpp:104-117) *)
Definition derive_access_counts (cluster_contention : list rbound) : list N :=
  fold_left (fun counts req => add_at (rb_res req) (q_num (rb_req req)) counts) cluster_contention [].
(** count_accesses_for_task (fmlp_plus.cpp:119-142) *)
Definition count_accesses_for_task (tsk : taskinfo) (acc_counts : list (list N)) : list N :=
  map (fun ac => fold_left (fun count req =>
    if Nat.ltb (q_res req) (length ac) && (0 <? nth (q_res req) ac 0) then count + q_num req else count) (ti_requests tsk) 0) acc_counts.
(** derive_access_counts (fmlp_plus.cpp:144-160), one task *)
Definition issued_counts (per_cluster : list (list rbound)) (tsk : taskinfo) : list N :=
  count_accesses_for_task tsk (map derive_access_counts per_cluster).

(** pfmlp_bound_remote_blocking (fmlp_plus.cpp:162-201) *)
Definition pfmlp_bound_remote_blocking (tsk : taskinfo) (icounts : list N) (counts : list interf) (contention : list (list (list rbound))) : interf :=
  fold_left (fun blocking i =>
    let max_per_task := N.min (i_count (nth i counts inter0)) (nth i icounts 0) in
    if Nat.eqb i (ti_cluster tsk) || (max_per_task =? 0) then blocking
    else iadd blocking (fold_left (fun b cs => iadd b (bound_blocking cs (ti_response tsk) max_per_task UNLIMITED (ti_id tsk) 0)) (nth i contention []) inter0))
    (seq 0 (length contention)) inter0.

(** pfmlp_bound_np_blocking (fmlp_plus.cpp:203-232) *)
Definition pfmlp_bound_np_blocking (tsk : taskinfo) (counts : list interf) (per_cluster : list (list rbound)) : interf :=
  fold_left (fun blocking i =>
    if Nat.eqb i (ti_cluster tsk) then blocking
    else let max_direct := i_count (nth i counts inter0) in
         iadd blocking (bound_blocking (nth i per_cluster []) (ti_response tsk) max_direct max_direct (ti_id tsk) 0))
    (seq 0 (length per_cluster)) inter0.

(** TaskInfo::get_total_num_requests, get_num_arrivals (sharedres_types.h:141-152) *)
Definition get_total_num_requests (tsk : taskinfo) : N := fold_left (fun count req => count + q_num req) (ti_requests tsk) 0.
(** sharedres_types.h:141-144 *)
Definition get_num_arrivals (tsk : taskinfo) : N := get_total_num_requests tsk + 1.

(** pfmlp_bound_local_blocking (fmlp_plus.cpp:234-271) *)
Definition pfmlp_bound_local_blocking (tsk : taskinfo) (counts : list interf) (contention : list (list (list rbound))) : interf :=
  let num_db := fold_left iadd counts inter0 in
  let num_arrivals := N.min (get_num_arrivals tsk) (i_count num_db + 1) in
  fold_left (fun blocking cs => iadd blocking (bound_blocking cs (ti_response tsk) num_arrivals UNLIMITED (ti_id tsk) (ti_prio tsk)))
    (nth (ti_cluster tsk) contention []) inter0.

(** part_fmlp_bounds (fmlp_plus.cpp:273-343) *)
Definition part_fmlp_bounds (info : list taskinfo) (preemptive : bool) : list bounds :=
  let clusters := split_by_cluster info 0 in
  let resources := split_clusters_by_resource clusters in
  let contention := map (map sort_by_request_length) (derive_task_contention clusters) in
  let per_cluster := map sort_by_request_length (all_per_cluster clusters) in
  map (fun tsk =>
    let counts := pfmlp_count_direct_blocking tsk resources in
    let remote := pfmlp_bound_remote_blocking tsk (issued_counts per_cluster tsk) counts contention in
    let local := pfmlp_bound_local_blocking tsk counts contention in
    let remote := if negb preemptive then iadd remote (pfmlp_bound_np_blocking tsk counts per_cluster) else remote in
    BB (iadd remote local) inter0 inter0 remote local) info.
