(** Model of the LP-based spin-lock analyses in native/src/blocking/linprog/:
    lp_spinlocks.cpp (objective, common constraints, baseline analysis) and the
    non-preemptive FIFO analysis (MSRP) of lp_spinlock_msrp.cpp.  A program is
    generated over structured variables (ModelLP); what the solver returns is
    specified in SpecLP.  Unsigned machine integers are unbounded naturals; a
    response time in the task records is the one given to the analysis
    (schedcat/locking/bounds.py:47-76).  Definitions only. *)
From Coq Require Import NArith ZArith QArith List Bool.
From Verif Require Import ModelLocking ModelLP.
Import ListNotations.

(** a number as the double it is converted to, e.g. in add_inequality (model.h:148) *)
Definition NQ (n : N) : Q := inject_Z (Z.of_N n).

(** std::set<unsigned int>::insert (lp_spinlocks.cpp:141) *)
Fixpoint set_insert (x : nat) (l : list nat) : list nat :=
  match l with
  | [] => [x]
  | y :: r => if Nat.ltb x y then x :: l else if Nat.eqb x y then l else y :: set_insert x r
  end.

(** get_all_resources (lp_spinlocks.cpp:135-144) *)
Definition get_all_resources (info : list taskinfo) : list nat :=
  fold_left (fun s r => set_insert (rb_res r) s) (all_requests info) [].

(** TaskInfo::get_num_requests: of the first bound for the resource (sharedres_types.h:162-168) *)
Definition get_num_requests_for (t : taskinfo) (res : nat) : N :=
  match find (fun q => Nat.eqb (q_res q) res) (ti_requests t) with Some q => q_num q | None => 0%N end.

(** get_max_num_requests_in_busy_window (sharedres.cpp:80-85) *)
Definition get_max_num_requests_in_busy_window (r : rbound) (len : N) : N :=
  (uni_fp_local_get_max_num_jobs (rb_task r) len * q_num (rb_req r))%N.

(** foreach_request_instance (iter-helper.h:7-13): the values of the index *)
Definition request_instances (r : rbound) (ti : taskinfo) : list nat :=
  seq 0 (N.to_nat (get_max_num_requests r (ti_response ti))).

(** lookup_arrival_enabled (lp_common.h:84-87) *)
Definition arrival_enabled (res : nat) : var := Var 0 res 0 BLOCKING_PREEMPT.

(** the variable vars.lookup(t, q, v, type) of an instance of a request (lp_spinlocks.cpp:242, 245) *)
Definition request_var (r : rbound) (v : nat) (b : btype) : var := Var (ti_id (rb_task r)) (rb_res r) v b.

(** the requests of a task with the task (lp_spinlocks.cpp:233) *)
Definition requests_of (t : taskinfo) : list rbound := map (RB t) (ti_requests t).
(** the requests for a resource: the tests such as lp_spinlocks.cpp:454 and iter-helper.h:117-119 *)
Definition requests_for (t : taskinfo) (res : nat) : list rbound := filter (fun r => Nat.eqb (rb_res r) res) (requests_of t).

(** exp->add_var of every instance of some requests (e.g. lp_spinlocks.cpp:384-391) *)
Definition sum_instances (ti : taskinfo) (b : btype) (rs : list rbound) : linexp var :=
  concat (map (fun r => concat (map (fun v => add_var (request_var r v b)) (request_instances r ti))) rs).

(** foreach_task_except (iter-helper.h:16-18) *)
Definition tasks_except (info : list taskinfo) (ti : taskinfo) : list taskinfo := filter (fun t => negb (Nat.eqb (ti_id t) (ti_id ti))) info.
(** foreach_remote_task (iter-helper.h:61-63) *)
Definition remote_tasks (info : list taskinfo) (ti : taskinfo) : list taskinfo := filter (fun t => negb (Nat.eqb (ti_cluster t) (ti_cluster ti))) info.
(** foreach_local_highereq_priority_task_except (iter-helper.h:110-114) *)
Definition local_highereq (info : list taskinfo) (ti : taskinfo) : list taskinfo :=
  filter (fun t => Nat.eqb (ti_cluster t) (ti_cluster ti) && negb (Nat.eqb (ti_id t) (ti_id ti)) && (ti_prio t <=? ti_prio ti)%N) info.
(** local tasks of higher priority: the test in lp_spinlocks.cpp:202-203 *)
Definition local_hp (info : list taskinfo) (ti : taskinfo) : list taskinfo :=
  filter (fun t => Nat.eqb (ti_cluster t) (ti_cluster ti) && (ti_prio t <? ti_prio ti)%N) info.
(** local tasks of lower priority: the tests in lp_spinlocks.cpp:347-348, 449-450 *)
Definition local_lp (info : list taskinfo) (ti : taskinfo) : list taskinfo :=
  filter (fun t => Nat.eqb (ti_cluster t) (ti_cluster ti) && (ti_prio ti <? ti_prio t)%N) info.

(** a loop that adds to a counter (e.g. lp_spinlocks.cpp:193-218) *)
Definition sum_over {A} (f : A -> N) (l : list A) : N := fold_left (fun s x => (s + f x)%N) l 0%N.

(** count_local_hp_reqs (lp_spinlocks.cpp:188-220) *)
Definition count_local_hp_reqs (info : list taskinfo) (ti : taskinfo) (res : nat) : N :=
  (sum_over (fun r => q_num (rb_req r)) (requests_for ti res) +
   sum_over (fun t => sum_over (fun r => get_max_num_requests_in_busy_window r (ti_response ti)) (requests_for t res)) (local_hp info ti))%N.

(** set_spinlock_blocking_objective (lp_spinlocks.cpp:222-250) *)
Definition set_spinlock_blocking_objective (info : list taskinfo) (ti : taskinfo) (lp : lprog var) : lprog var :=
  add_objective (concat (map (fun tx => concat (map (fun r =>
    concat (map (fun v => [(NQ (rb_len r), request_var r v BLOCKING_DIRECT); (NQ (rb_len r), request_var r v BLOCKING_ARRIVAL)]) (request_instances r ti)))
    (requests_of tx))) (tasks_except info ti))) lp.

(** add_common_mutex_constraints, Constraint 1 (lp_spinlocks.cpp:253-280) *)
Definition add_common_mutex_constraints (info : list taskinfo) (ti : taskinfo) (lp : lprog var) : lprog var :=
  fold_left (fun lp tx => fold_left (fun lp r => fold_left (fun lp v =>
    add_inequality (add_var (request_var r v BLOCKING_DIRECT) ++ add_var (request_var r v BLOCKING_ARRIVAL)) 1 lp)
    (request_instances r ti) lp) (requests_of tx) lp) (tasks_except info ti) lp.

(** add_common_conflict_set_constraints, Constraint 4 (lp_spinlocks.cpp:283-305); the order of the set is immaterial *)
Definition add_common_conflict_set_constraints (info : list taskinfo) (ti : taskinfo) (lp : lprog var) : lprog var :=
  let ceilings := get_priority_ceilings info in
  let non_conflicting := filter (fun res => (ti_prio ti <? nth res ceilings UNLIMITED)%N) (get_local_resources info) in
  add_equality (concat (map (fun res => add_var (arrival_enabled res)) non_conflicting)) 0 lp.

(** add_common_atmostone_arrival_blocking_res_constraints, Constraint 2 (lp_spinlocks.cpp:310-327) *)
Definition add_common_atmostone_arrival_blocking_res_constraints (info : list taskinfo) (ti : taskinfo) (lp : lprog var) : lprog var :=
  match get_all_resources info with
  | [] => lp
  | rs => add_inequality (concat (map (fun res => add_var (arrival_enabled res)) rs)) 1 lp
  end.

(** the loop body of lp_spinlocks.cpp:342-362: (program, expression) *)
Definition no_arrival_step (info : list taskinfo) (ti : taskinfo) (st : lprog var * linexp var) (res : nat) : lprog var * linexp var :=
  let '(lp, e) := st in
  let local_lower_prio_reqs := sum_over (fun t => sum_over (fun r => q_num (rb_req r)) (requests_for t res)) (local_lp info ti) in
  (declare_variable_binary (arrival_enabled res) lp,
   if (local_lower_prio_reqs =? 0)%N then e ++ add_var (arrival_enabled res) else e).
(** add_common_no_arrival_blocking_constraints, Constraint 3 (lp_spinlocks.cpp:332-364) *)
Definition add_common_no_arrival_blocking_constraints (info : list taskinfo) (ti : taskinfo) (lp : lprog var) : lprog var :=
  let '(lp1, e) := fold_left (no_arrival_step info ti) (get_all_resources info) (lp, []) in
  add_inequality e 0 lp1.

(** add_common_no_local_higher_priority_arrival_constraints, Constraint 5 (lp_spinlocks.cpp:368-396) *)
Definition add_common_no_local_higher_priority_arrival_constraints (info : list taskinfo) (ti : taskinfo) (lp : lprog var) : lprog var :=
  fold_left (fun lp t =>
    if (ti_prio t <? ti_prio ti)%N then add_inequality (sum_instances ti BLOCKING_ARRIVAL (requests_of t)) 0 lp else lp)
    (nth (ti_cluster ti) (split_by_cluster info 0) []) lp.

(** add_common_local_direct_blocking_constraints, Constraint 7 (lp_spinlocks.cpp:399-429) *)
Definition add_common_local_direct_blocking_constraints (info : list taskinfo) (ti : taskinfo) (lp : lprog var) : lprog var :=
  add_equality (concat (map (fun t =>
    if negb (Nat.eqb (ti_id t) (ti_id ti)) then sum_instances ti BLOCKING_DIRECT (requests_of t) else [])
    (nth (ti_cluster ti) (split_by_cluster info 0) []))) 0 lp.

(** add_common_atmostonce_local_arrival_constraints, Constraint 6 (lp_spinlocks.cpp:433-472) *)
Definition add_common_atmostonce_local_arrival_constraints (info : list taskinfo) (ti : taskinfo) (lp : lprog var) : lprog var :=
  fold_left (fun lp res =>
    let e := concat (map (fun t => sum_instances ti BLOCKING_ARRIVAL (requests_for t res)) (local_lp info ti)) in
    add_inequality (if has_terms e then e ++ sub_var (arrival_enabled res) else e) 0 lp)
    (get_all_resources info) lp.

(** count_requests_in_contention_windows (lp_spinlocks.cpp:507-529) *)
Definition count_requests_in_contention_windows (info : list taskinfo) (ti tx : taskinfo) (res : nat) : N :=
  let reqs_per_job := get_num_requests_for tx res in
  if (reqs_per_job =? 0)%N then 0%N
  else (sum_over (fun th =>
          if (get_num_requests_for th res =? 0)%N then 0
          else uni_fp_local_get_max_num_jobs th (ti_response ti) * get_max_num_jobs tx (ti_response th)) (local_highereq info ti)
        * reqs_per_job)%N.

(** add_contention_window_constraints_for_resource (lp_spinlocks.cpp:531-561) *)
Definition add_contention_window_constraints_for_resource (info : list taskinfo) (ti : taskinfo) (lp : lprog var) (res : nat) : lprog var :=
  fold_left (fun lp tx =>
    add_inequality (sum_instances ti BLOCKING_DIRECT (requests_for tx res)) (NQ (count_requests_in_contention_windows info ti tx res)) lp)
    (remote_tasks info ti) lp.

(** add_common_transitive_contention_window_constraints (lp_spinlocks.cpp:563-577) *)
Definition add_common_transitive_contention_window_constraints (info : list taskinfo) (ti : taskinfo) (lp : lprog var) : lprog var :=
  fold_left (fun lp res =>
    if (get_num_requests_for ti res =? 0)%N then add_contention_window_constraints_for_resource info ti lp res else lp)
    (get_all_resources info) lp.

(** add_common_spinlock_constraints (lp_spinlocks.cpp:580-608) *)
Definition add_common_spinlock_constraints (info : list taskinfo) (ti : taskinfo) (lp : lprog var) : lprog var :=
  let lp := add_common_mutex_constraints info ti lp in
  let lp := add_common_conflict_set_constraints info ti lp in
  let lp := add_common_atmostone_arrival_blocking_res_constraints info ti lp in
  let lp := add_common_no_arrival_blocking_constraints info ti lp in
  let lp := add_common_no_local_higher_priority_arrival_constraints info ti lp in
  let lp := add_common_local_direct_blocking_constraints info ti lp in
  let lp := add_common_atmostonce_local_arrival_constraints info ti lp in
  add_common_transitive_contention_window_constraints info ti lp.

(** the requests of a cluster for a resource (lp_spinlock_msrp.cpp:63-78, 109-122) *)
Definition cluster_requests_for (info : list taskinfo) (c res : nat) : list rbound :=
  concat (map (fun t => requests_for t res) (nth c (split_by_cluster info 0) [])).

(** the clusters other than that of the task (lp_spinlock_msrp.cpp:58-61, 101-104) *)
Definition other_clusters (info : list taskinfo) (ti : taskinfo) : list nat :=
  filter (fun c => negb (Nat.eqb c (ti_cluster ti))) (seq 0 (length (split_by_cluster info 0))).

(** add_msrp_max_direct_blocking_constraints with preemptive = false, Constraint 8 (lp_spinlock_msrp.cpp:44-87) *)
Definition add_msrp_max_direct_blocking_constraints (info : list taskinfo) (ti : taskinfo) (lp : lprog var) : lprog var :=
  fold_left (fun lp res =>
    let niql := count_local_hp_reqs info ti res in
    fold_left (fun lp c => add_inequality (sum_instances ti BLOCKING_DIRECT (cluster_requests_for info c res)) (NQ niql) lp)
      (other_clusters info ti) lp) (get_all_resources info) lp.

(** add_msrp_atmostonce_remote_arrival_constraints, Constraint 9 (lp_spinlock_msrp.cpp:91-132) *)
Definition add_msrp_atmostonce_remote_arrival_constraints (info : list taskinfo) (ti : taskinfo) (lp : lprog var) : lprog var :=
  fold_left (fun lp c => fold_left (fun lp res =>
    let e := sum_instances ti BLOCKING_ARRIVAL (cluster_requests_for info c res) in
    if has_terms e
    then add_inequality (e ++ sub_var (arrival_enabled res)) 0 (declare_variable_binary (arrival_enabled res) lp)
    else add_inequality e 0 lp) (get_all_resources info) lp) (other_clusters info ti) lp.

(** add_msrp_constraints (lp_spinlock_msrp.cpp:151-164) *)
Definition add_msrp_constraints (info : list taskinfo) (ti : taskinfo) (lp : lprog var) : lprog var :=
  let lp := add_common_spinlock_constraints info ti lp in
  let lp := add_msrp_max_direct_blocking_constraints info ti lp in
  add_msrp_atmostonce_remote_arrival_constraints info ti lp.

(** the program of apply_msrp_bounds_for_task with preemptive = false (lp_spinlock_msrp.cpp:176-186) *)
Definition msrp_lp (info : list taskinfo) (ti : taskinfo) : lprog var :=
  set_spinlock_blocking_objective info ti (add_msrp_constraints info ti lp_empty).

(** the program of apply_baseline_bounds_for_task (lp_spinlocks.cpp:627-634) *)
Definition baseline_lp (info : list taskinfo) (ti : taskinfo) : lprog var :=
  set_spinlock_blocking_objective info ti (add_common_spinlock_constraints info ti lp_empty).
