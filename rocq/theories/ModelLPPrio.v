(** Model of the LP-based analyses of priority-ordered spin locks with
    non-preemptive spinning: native/src/blocking/linprog/lp_spinlock_prio.cpp
    (lp_pfp_prio_spinlock_bounds) and lp_spinlock_prio_fifo.cpp
    (lp_pfp_prio_fifo_spinlock_bounds), both with preemptive = false, as called by
    schedcat/locking/bounds.py:455-460, 469-474.  Same conventions as ModelLPSpin; the
    branches for preemptive = true are left out.  The field request_priority
    (sharedres_types.h:31, 60) is a function [rp] of the task and the resource,
    as a task has one request bound per resource; smaller numbers are higher
    locking priorities.  Definitions only. *)
From Coq Require Import NArith ZArith QArith List Bool.
From Verif Require Import ModelLocking ModelLP ModelLPSpin ModelLPUnordered.
Import ListNotations.

(** the locking priorities: task id, resource (sharedres_types.h:31) *)
Definition locking := nat -> nat -> N.

(** ResourceSharingInfo::add_request drops its argument locking_priority; the
    request gets the default 0 (sharedres_types.h:295-304, 116-122) *)
Definition add_request_priority (locking_priority : N) : N := 0.
(** the priorities in the model that get_cpp_model builds (bounds.py:68-72) *)
Definition get_cpp_model_priorities (rp : locking) : locking := fun t q => add_request_priority (rp t q).

(** RequestBound::get_request_priority (sharedres_types.h:60) *)
Definition get_request_priority (rp : locking) (r : rbound) : N := rp (ti_id (rb_task r)) (rb_res r).

(** a loop that computes a maximum, starting with 0 (e.g. lp_spinlocks.cpp:31-37) *)
Definition max_over {A} (f : A -> N) (l : list A) : N := fold_left (fun m x => N.max m (f x)) l 0%N.

(** get_min_prio of a task (lp_spinlocks.cpp:27-38) *)
Definition get_min_prio_of (rp : locking) (ti : taskinfo) (res : nat) : N := max_over (get_request_priority rp) (requests_for ti res).

(** the requests that get_min_prio looks at (lp_spinlocks.cpp:55-63) *)
Definition local_requests_for (info : list taskinfo) (ti : taskinfo) (res : nat) (LP : bool) : list rbound :=
  concat (map (fun t => requests_for t res)
    (filter (fun t => if LP then (ti_prio ti <? ti_prio t)%N else (ti_prio t <=? ti_prio ti)%N) (nth (ti_cluster ti) (split_by_cluster info 0) []))).
(** get_min_prio of local lower- or higher-priority tasks (lp_spinlocks.cpp:45-73) *)
Definition get_min_prio (rp : locking) (info : list taskinfo) (ti : taskinfo) (res : nat) (LP : bool) : N :=
  match local_requests_for info ti res LP with
  | [] => N.of_nat (length info)
  | rs => max_over (get_request_priority rp) rs
  end.

(** the requests of other clusters for a resource (lp_spinlock_prio.cpp:131-135, 196-203) *)
Definition remote_requests_for (info : list taskinfo) (ti : taskinfo) (res : nat) : list rbound :=
  concat (map (fun t => requests_for t res) (remote_tasks info ti)).

(** LP_Ti: the longest request of lower locking priority (lp_spinlock_prio.cpp:154-160, lp_spinlock_prio_fifo.cpp:452-468) *)
Definition longest_lower (rp : locking) (info : list taskinfo) (ti : taskinfo) (res : nat) : N :=
  max_over rb_len (filter (fun r => (get_min_prio_of rp ti res <? get_request_priority rp r)%N) (remote_requests_for info ti res)).

(** delay_by_higher (lp_spinlock_prio.cpp:189-213; with < instead of <=: lp_spinlock_prio_fifo.cpp:490-508) *)
Definition delay_by_higher (info : list taskinfo) (ti : taskinfo) (res : nat) (higher : rbound -> bool) (estimate : N) : N :=
  sum_over (fun r => rb_len r * get_max_num_requests r estimate)%N (filter higher (remote_requests_for info ti res)).

(** at least the locking priority (lp_spinlock_prio.cpp:205) *)
Definition highereq (rp : locking) (lprio : N) (r : rbound) : bool := (get_request_priority rp r <=? lprio)%N.
(** higher than the locking priority (lp_spinlock_prio_fifo.cpp:500) *)
Definition higher (rp : locking) (lprio : N) (r : rbound) : bool := (get_request_priority rp r <? lprio)%N.
(** the locking priority (lp_spinlock_prio_fifo.cpp:37) *)
Definition same (rp : locking) (lprio : N) (r : rbound) : bool := (get_request_priority rp r =? lprio)%N.
(** lower than the locking priority (lp_spinlock_prio.cpp:325) *)
Definition lower (rp : locking) (lprio : N) (r : rbound) : bool := (lprio <? get_request_priority rp r)%N.

(** bound_wait_time_prio with preemptive = false, so that Qlh is empty (lp_spinlock_prio.cpp:112-237);
    the loop is the one of ModelLPUnordered, as new_estimate is the delay plus one (lines 228-231) *)
Definition bound_wait_time_prio (rp : locking) (info : list taskinfo) (ti : taskinfo) (res : nat) (locking_prio : N) : wait_outcome :=
  let LP_Ti := longest_lower rp info ti res in
  wait_loop (N.to_nat (ti_period ti) + 3)
    (fun estimate => LP_Ti + delay_by_higher info ti res (highereq rp locking_prio) estimate)%N (ti_period ti) 0 LP_Ti.

(** get_max_CS_per_cluster (lp_spinlock_prio_fifo.cpp:18-49) *)
Definition get_max_CS_per_cluster (rp : locking) (info : list taskinfo) (ti : taskinfo) (res : nat) (locking_prio : N) : N :=
  sum_over (fun c => max_over rb_len (filter (same rp locking_prio) (cluster_requests_for info c res))) (other_clusters info ti).

(** bound_wait_time_prio_fifo (lp_spinlock_prio_fifo.cpp:440-525) *)
Definition bound_wait_time_prio_fifo (rp : locking) (info : list taskinfo) (ti : taskinfo) (res : nat) (locking_prio : N) : wait_outcome :=
  let LP_Ti := longest_lower rp info ti res in
  let SP_Ti := get_max_CS_per_cluster rp info ti res (get_min_prio_of rp ti res) in
  wait_loop (N.to_nat (ti_period ti) + 3)
    (fun estimate => LP_Ti + SP_Ti + delay_by_higher info ti res (higher rp locking_prio) estimate)%N (ti_period ti) 0 (LP_Ti + SP_Ti)%N.

(** the bound used in the constraints (lp_spinlock_prio.cpp:257-260, 385-388) *)
Definition or_response (ti : taskinfo) (w : wait_outcome) : N :=
  match w with WaitBound w => w | NotConverged => ti_response ti | OutOfFuel => 0 end.

(** the tasks of other clusters in the order of the loops (e.g. lp_spinlock_prio.cpp:262-267) *)
Definition for_other_clusters {A} (info : list taskinfo) (ti : taskinfo) (f : A -> taskinfo -> A) (a : A) : A :=
  fold_left (fun a c => fold_left f (nth c (split_by_cluster info 0) []) a) (other_clusters info ti) a.

(** Constraints 12 and 16 for a resource and a task, and the code of both (lp_spinlock_prio.cpp:267-284, lp_spinlock_prio_fifo.cpp:558-577) *)
Definition direct_blocking_HP (ti : taskinfo) (sel : rbound -> bool) (ncs wait : N) (res : nat) (lp : lprog var) (tx : taskinfo) : lprog var :=
  let rs := filter sel (requests_for tx res) in
  add_inequality (sum_instances ti BLOCKING_DIRECT rs) (NQ (sum_over (fun r => get_max_num_requests r wait) rs * ncs)) lp.

(** Constraints 15 and 18 for a resource and a task; [factor] is 1 and ncs (lp_spinlock_prio.cpp:395-419, lp_spinlock_prio_fifo.cpp:668-692) *)
Definition arrival_blocking_HP (ti : taskinfo) (sel : rbound -> bool) (factor wait : N) (res : nat) (lp : lprog var) (tx : taskinfo) : lprog var :=
  let rs := filter sel (requests_for tx res) in
  let e := sum_instances ti BLOCKING_ARRIVAL rs in
  add_inequality (if has_terms e then e ++ sub_term (NQ (sum_over (fun r => get_max_num_requests r wait) rs * factor)) (arrival_enabled res) else e) 0 lp.

(** add_prio_direct_blocking_HP_constraints, Constraint 12 (lp_spinlock_prio.cpp:242-290) *)
Definition add_prio_direct_blocking_HP_constraints (rp : locking) (info : list taskinfo) (ti : taskinfo) (lp : lprog var) : lprog var :=
  fold_left (fun lp res =>
    let min_prioHP := get_min_prio rp info ti res false in
    let ncs := count_local_hp_reqs info ti res in
    let wait := or_response ti (bound_wait_time_prio rp info ti res min_prioHP) in
    for_other_clusters info ti (direct_blocking_HP ti (highereq rp min_prioHP) ncs wait res) lp) (get_all_resources info) lp.

(** add_prio_blocking_LP_constraints, Constraints 13 and 14 (lp_spinlock_prio.cpp:299-368) *)
Definition add_prio_blocking_LP_constraints (rp : locking) (info : list taskinfo) (ti : taskinfo) (lp : lprog var) : lprog var :=
  fold_left (fun lp res =>
    let min_prioHP := get_min_prio rp info ti res false in
    let ncs := count_local_hp_reqs info ti res in
    let rs := filter (lower rp min_prioHP) (remote_requests_for info ti res) in
    let exp_direct := sum_instances ti BLOCKING_DIRECT rs in
    let exp_arrival := sum_instances ti BLOCKING_ARRIVAL rs in
    if has_terms exp_direct
    then add_inequality (exp_arrival ++ sub_var (arrival_enabled res)) 0 (add_inequality exp_direct (NQ ncs) lp)
    else lp) (get_all_resources info) lp.

(** add_prio_arrival_blocking_HP_constraints, Constraint 15 (lp_spinlock_prio.cpp:372-423) *)
Definition add_prio_arrival_blocking_HP_constraints (rp : locking) (info : list taskinfo) (ti : taskinfo) (lp : lprog var) : lprog var :=
  fold_left (fun lp res =>
    let min_prioLP := get_min_prio rp info ti res true in
    let wait := or_response ti (bound_wait_time_prio rp info ti res min_prioLP) in
    for_other_clusters info ti (arrival_blocking_HP ti (highereq rp min_prioLP) 1 wait res) lp) (get_all_resources info) lp.

(** the program of apply_prio_bounds_for_task (lp_spinlock_prio.cpp:425-449, 457-463) *)
Definition prio_lp (rp : locking) (info : list taskinfo) (ti : taskinfo) : lprog var :=
  let lp := add_common_spinlock_constraints info ti lp_empty in
  let lp := add_prio_direct_blocking_HP_constraints rp info ti lp in
  let lp := add_prio_blocking_LP_constraints rp info ti lp in
  let lp := add_prio_arrival_blocking_HP_constraints rp info ti lp in
  set_spinlock_blocking_objective info ti lp.

(** add_prio_fifo_direct_blocking_HP_constraints, Constraint 16 (lp_spinlock_prio_fifo.cpp:530-583) *)
Definition add_prio_fifo_direct_blocking_HP_constraints (rp : locking) (info : list taskinfo) (ti : taskinfo) (lp : lprog var) : lprog var :=
  fold_left (fun lp res =>
    let min_prioHP := get_min_prio rp info ti res false in
    let ncs := count_local_hp_reqs info ti res in
    let wait := or_response ti (bound_wait_time_prio_fifo rp info ti res min_prioHP) in
    for_other_clusters info ti (direct_blocking_HP ti (higher rp min_prioHP) ncs wait res) lp) (get_all_resources info) lp.

(** add_prio_fifo_max_direct_blocking_constraints, Constraint 17 (lp_spinlock_prio_fifo.cpp:590-638) *)
Definition add_prio_fifo_max_direct_blocking_constraints (rp : locking) (info : list taskinfo) (ti : taskinfo) (lp : lprog var) : lprog var :=
  fold_left (fun lp res =>
    let min_prioHP := get_min_prio rp info ti res false in
    let niql := count_local_hp_reqs info ti res in
    fold_left (fun lp c => add_inequality (sum_instances ti BLOCKING_DIRECT (filter (same rp min_prioHP) (cluster_requests_for info c res))) (NQ niql) lp)
      (other_clusters info ti) lp) (get_all_resources info) lp.

(** add_prio_fifo_arrival_blocking_HP_constraints, Constraint 18 (lp_spinlock_prio_fifo.cpp:643-696) *)
Definition add_prio_fifo_arrival_blocking_HP_constraints (rp : locking) (info : list taskinfo) (ti : taskinfo) (lp : lprog var) : lprog var :=
  fold_left (fun lp res =>
    let min_prioLP := get_min_prio rp info ti res true in
    let ncs := count_local_hp_reqs info ti res in
    let wait := or_response ti (bound_wait_time_prio_fifo rp info ti res min_prioLP) in
    for_other_clusters info ti (arrival_blocking_HP ti (higher rp min_prioLP) ncs wait res) lp) (get_all_resources info) lp.

(** add_prio_fifo_atmostonce_remote_arrival_constraints, Constraint 19 (lp_spinlock_prio_fifo.cpp:701-744) *)
Definition add_prio_fifo_atmostonce_remote_arrival_constraints (rp : locking) (info : list taskinfo) (ti : taskinfo) (lp : lprog var) : lprog var :=
  fold_left (fun lp res =>
    let min_prioLP := get_min_prio rp info ti res true in
    fold_left (fun lp c =>
      let e := sum_instances ti BLOCKING_ARRIVAL (filter (same rp min_prioLP) (cluster_requests_for info c res)) in
      if has_terms e
      then add_inequality (e ++ sub_var (arrival_enabled res)) 0 (declare_variable_binary (arrival_enabled res) lp)
      else add_inequality e 0 lp) (other_clusters info ti) lp) (get_all_resources info) lp.

(** the program of apply_prio_fifo_bounds_for_task (lp_spinlock_prio_fifo.cpp:747-781, 790-796) *)
Definition prio_fifo_lp (rp : locking) (info : list taskinfo) (ti : taskinfo) : lprog var :=
  let lp := add_common_spinlock_constraints info ti lp_empty in
  let lp := add_prio_blocking_LP_constraints rp info ti lp in
  let lp := add_prio_fifo_direct_blocking_HP_constraints rp info ti lp in
  let lp := add_prio_fifo_max_direct_blocking_constraints rp info ti lp in
  let lp := add_prio_fifo_arrival_blocking_HP_constraints rp info ti lp in
  let lp := add_prio_fifo_atmostonce_remote_arrival_constraints rp info ti lp in
  set_spinlock_blocking_objective info ti lp.
