(** Model of schedcat/sched/pfair.py.  Floating-point utilizations are exact
    rationals; a period of zero raises an exception in Python and is outside the
    model.  Definitions only. *)
From Coq Require Import ZArith QArith List Bool.
From Verif Require Import ModelTasks.
Import ListNotations.
Open Scope Z_scope.

(** is_schedulable (pfair.py:2-8) *)
Definition pf_is_schedulable (no_cpus : Z) (ts : taskset) : bool :=
  Qle_bool (ts_utilization ts None) (inject_Z no_cpus) &&
  forallb (fun t => (t_period t <=? t_deadline t) && (t_cost t <=? t_period t)) ts.

(** has_bounded_tardiness (pfair.py:10-15) *)
Definition pf_has_bounded_tardiness (no_cpus : Z) (ts : taskset) : bool :=
  Qle_bool (ts_utilization ts None) (inject_Z no_cpus) && forallb (fun t => t_cost t <=? t_period t) ts.

(** bound_response_times (pfair.py:17-27): the second component of an entry is the
    attribute response_time of the task, [None] if it is not set *)
Definition pf_bound_response_times (no_cpus : Z) (ts : list (task * option Z)) : bool * list (task * option Z) :=
  if pf_has_bounded_tardiness no_cpus (map fst ts)
  then (true, map (fun e => (fst e, Some (t_period (fst e)))) ts)
  else (false, ts).
