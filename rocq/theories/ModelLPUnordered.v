(** Model of the LP-based analysis of unordered spin locks with non-preemptive
    spinning, native/src/blocking/linprog/lp_spinlock_unordered.cpp with
    preemptive = false (lp_pfp_unordered_spinlock_bounds(info, False), called by
    schedcat/locking/bounds.py:441-446).  Same conventions as ModelLPSpin; the
    branches for preemptive = true are left out.  Definitions only. *)
From Coq Require Import NArith ZArith QArith List Bool.
From Verif Require Import ModelLocking ModelLP ModelLPSpin.
Import ListNotations.

(** sub_term (model.h:30-34) *)
Definition sub_term {V} (pos_coefficient : Q) (v : V) : linexp V := [((- pos_coefficient)%Q, v)].

(** the sums over the requests of other clusters for a resource: the loops of
    lp_spinlock_unordered.cpp:26-37 (with [f] the number of requests) and 50-60 *)
Definition remote_demand (info : list taskinfo) (ti : taskinfo) (res : nat) (f : rbound -> N) : N :=
  sum_over (fun t => sum_over (fun r => rb_len r * f r)%N (requests_for t res)) (remote_tasks info ti).

(** the results of bound_wait_time (lp_spinlock_unordered.cpp:69-72); [OutOfFuel] has no counterpart *)
Inductive wait_outcome := WaitBound (w : N) | NotConverged | OutOfFuel.

(** the loop of lp_spinlock_unordered.cpp:42-67, with a bound on the iterations (see C52_terminates), and the result of lines 69-72 *)
Fixpoint wait_loop (fuel : nat) (delay : N -> N) (period estimate new_estimate : N) : wait_outcome :=
  match fuel with
  | O => OutOfFuel
  | S k =>
    if (estimate <=? period)%N && negb (estimate =? new_estimate)%N
    then wait_loop k delay period new_estimate (delay new_estimate + 1)
    else if (estimate <=? period)%N then WaitBound estimate else NotConverged
  end.

(** bound_wait_time with preemptive = false (lp_spinlock_unordered.cpp:11-73) *)
Definition bound_wait_time (info : list taskinfo) (ti : taskinfo) (res : nat) : wait_outcome :=
  wait_loop (N.to_nat (ti_period ti) + 3) (fun estimate => remote_demand info ti res (fun r => get_max_num_requests r estimate)) (ti_period ti)
    0 (remote_demand info ti res (fun r => q_num (rb_req r))).

(** the bound used in the constraints (lp_spinlock_unordered.cpp:90-93) *)
Definition wait_time_bound (info : list taskinfo) (ti : taskinfo) (res : nat) : N :=
  match bound_wait_time info ti res with WaitBound w => w | NotConverged => ti_response ti | OutOfFuel => 0 end.

(** the constraints for a resource and a task of another cluster (lp_spinlock_unordered.cpp:102-144) *)
Definition add_unordered_constraints_for (ti : taskinfo) (ncs wait : N) (res : nat) (lp : lprog var) (tx : taskinfo) : lprog var :=
  let exp_direct := sum_instances ti BLOCKING_DIRECT (requests_for tx res) in
  let exp_arrival := sum_instances ti BLOCKING_ARRIVAL (requests_for tx res) in
  let max_num_reqs := sum_over (fun r => get_max_num_requests r wait) (requests_for tx res) in
  if has_terms exp_direct
  then add_inequality (exp_arrival ++ sub_term (NQ max_num_reqs) (arrival_enabled res)) 0 (add_inequality exp_direct (NQ (max_num_reqs * ncs)) lp)
  else lp.

(** add_unordered_direct_blocking_constraints, Constraints 10 and 11 (lp_spinlock_unordered.cpp:75-149) *)
Definition add_unordered_direct_blocking_constraints (info : list taskinfo) (ti : taskinfo) (lp : lprog var) : lprog var :=
  fold_left (fun lp res =>
    let ncs := count_local_hp_reqs info ti res in
    let wait := wait_time_bound info ti res in
    fold_left (fun lp c => fold_left (add_unordered_constraints_for ti ncs wait res) (nth c (split_by_cluster info 0) []) lp)
      (other_clusters info ti) lp) (get_all_resources info) lp.

(** the program of apply_unordered_bounds_for_task (lp_spinlock_unordered.cpp:151-165, 178-183) *)
Definition unordered_lp (info : list taskinfo) (ti : taskinfo) : lprog var :=
  set_spinlock_blocking_objective info ti (add_unordered_direct_blocking_constraints info ti (add_common_spinlock_constraints info ti lp_empty)).
