(** Model of native/include/tasks.h and native/src/tasks.cpp (C++ task model).
    [unsigned long] and GMP integers are [Z], GMP rationals are [Q];
    wrap-around of [unsigned long] is not modelled.  Definitions only. *)
From Coq Require Import ZArith QArith List Bool.
From Verif Require Import Base.
Import ListNotations.
Open Scope Z_scope.

(** class Task (tasks.h:15-23) *)
Record ntask := NTask {
  n_wcet : Z; n_period : Z; n_deadline : Z;
  n_prio_pt : Z; n_susp : Z; n_tardiness : Z }.

(** Task::init (tasks.cpp:11-31); a parameter 0 selects the default. *)
Definition task_init (wcet period deadline prio_pt susp max_tardiness : Z) : ntask :=
  NTask wcet period
        (if deadline =? 0 then period else deadline)
        (if prio_pt =? 0 then deadline else prio_pt)
        susp max_tardiness.

(** TaskSet (tasks.h:192-206); add_task appends. *)
Definition ntaskset := list ntask.
(** TaskSet::add_task (tasks.h:204-206) *)
Definition add_task (ts : ntaskset) (wcet period deadline : Z) : ntaskset :=
  ts ++ [task_init wcet period deadline 0 0 0].

(** has_implicit_deadline, has_constrained_deadline, is_feasible,
    is_self_suspending (tasks.h:63-83) *)
Definition n_implicit (t : ntask) : bool := n_deadline t =? n_period t.
(** has_constrained_deadline (tasks.h:68-71) *)
Definition n_constrained (t : ntask) : bool := n_deadline t <=? n_period t.
(** is_feasible (tasks.h:73-78) *)
Definition n_feasible (t : ntask) : bool :=
  (n_wcet t + n_susp t <=? n_deadline t) && (n_wcet t + n_susp t <=? n_period t) && (0 <? n_wcet t).
(** is_self_suspending (tasks.h:80-83) *)
Definition n_suspending (t : ntask) : bool := 0 <? n_susp t.

(** TaskSet::has_* (tasks.cpp:76-94) *)
Definition has_only_implicit (ts : ntaskset) : bool := forallb n_implicit ts.
(** has_only_constrained_deadlines (tasks.cpp:81-84) *)
Definition has_only_constrained (ts : ntaskset) : bool := forallb n_constrained ts.
(** has_only_feasible_tasks (tasks.cpp:86-89) *)
Definition has_only_feasible (ts : ntaskset) : bool := forallb n_feasible ts.
(** has_no_self_suspending_tasks (tasks.cpp:91-94) *)
Definition has_no_suspending (ts : ntaskset) : bool := forallb (fun t => negb (n_suspending t)) ts.

(** A quotient of two [unsigned long] as GMP rational (tasks.cpp:33-45). *)
Definition frac (a b : Z) : Q := (inject_Z a / inject_Z b)%Q.

(** Task::get_utilization, Task::get_density (tasks.cpp:33-45) *)
Definition n_util (t : ntask) : Q := frac (n_wcet t) (n_period t).
(** Task::get_density (tasks.cpp:40-45) *)
Definition n_density (t : ntask) : Q := frac (n_wcet t) (n_deadline t).

(** TaskSet::get_utilization, get_density, get_max_density (tasks.cpp:96-128) *)
Definition ns_util (ts : ntaskset) : Q := fold_left (fun u t => (u + n_util t)%Q) ts 0%Q.
(** TaskSet::get_density (tasks.cpp:107-116) *)
Definition ns_density (ts : ntaskset) : Q := fold_left (fun u t => (u + n_density t)%Q) ts 0%Q.
(** std::max(a, b) is [(a < b) ? b : a] (tasks.cpp:126). *)
Definition qmax (a b : Q) : Q := if negb (Qle_bool b a) then b else a.
(** TaskSet::get_max_density (tasks.cpp:118-128) *)
Definition ns_max_density (ts : ntaskset) : Q := fold_left (fun m t => qmax m (n_density t)) ts 0%Q.

(** TaskSet::is_not_overutilized (tasks.cpp:130-135) *)
Definition is_not_overutilized (ts : ntaskset) (m : Z) : bool := Qle_bool (ns_util ts) (inject_Z m).

(** Task::bound_demand (tasks.h:106-117); the division is reached with a
    non-negative dividend only, so truncation and floor agree. *)
Definition bound_demand (t : ntask) (time : Z) : Z :=
  let d := time - n_deadline t in
  if d <? 0 then 0 else (d / n_period t + 1) * n_wcet t.

(** TaskSet::bound_demand (tasks.cpp:153-162) *)
Definition ns_bound_demand (ts : ntaskset) (time : Z) : Z :=
  fold_left (fun d t => d + bound_demand t time) ts 0.

(** divide_with_ceil on GMP integers, round_up (math-helper.h:23-37) *)
Definition divide_with_ceil (a b : Z) : Z := cdiv a b.
(** round_up (math-helper.h:32-37) *)
Definition round_up (f : Q) : Z := cdiv (Qnum f) (Zpos (Qden f)).
