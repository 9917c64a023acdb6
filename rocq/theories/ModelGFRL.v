(** Model of schedcat/sched/gfrl.py: the function whose zero is searched for, and
    what is derived from the zero.  Definitions only.
    Simplifications: utilization() is exact; the search for the zero
    (gfrl.py:110-373) is represented by an arbitrary result, since the code asserts
    what it relies on; min of an empty list, which raises, is 0 (for an empty task
    set the code fails earlier, at gfrl.py:133). *)
From Coq Require Import ZArith QArith Qround List Bool.
From Verif Require Import Base ModelTasks ModelTardiness.
Import ListNotations.
Open Scope Q_scope.

(** L * D_i - (m - 1) / m * C_i (gfrl.py:35-36, 379-380) *)
Definition rel_point (L : Q) (no_cpus : Z) (t : task) : Q :=
  L * inject_Z (t_deadline t) - zdivq ((no_cpus - 1) * t_cost t) no_cpus.

(** min of two fractions (gfrl.py:35, 379, 382): the first of equal ones *)
Definition qmin2 (a b : Q) : Q := if Qle_bool a b then a else b.

(** s_val (gfrl.py:34-36) and s (gfrl.py:379-381) *)
Definition gs_val (L : Q) (tasks : taskset) (no_cpus : Z) : Q :=
  match map (rel_point L no_cpus) tasks with
  | [] => 0
  | a :: r => fold_left qmin2 r a
  end.

(** Si_val (gfrl.py:43-51), of a task instead of its index *)
Definition Si_val (t : task) (L : Q) (tasks : taskset) (no_cpus : Z) : Q :=
  let raw_val := inject_Z (t_cost t) - zdivq (t_cost t) (t_period t) *
    (L * inject_Z (t_deadline t) - zdivq ((no_cpus - 1) * t_cost t) no_cpus - gs_val L tasks no_cpus) in
  if qltb raw_val 0 then 0 else raw_val.

(** S_val (gfrl.py:65-66) *)
Definition S_val (L : Q) (tasks : taskset) (no_cpus : Z) : Q := qsum (map (fun t => Si_val t L tasks no_cpus) tasks).

(** Gi_val (gfrl.py:71-75) *)
Definition Gi_val (t : task) (L : Q) (tasks : taskset) (no_cpus : Z) : Q :=
  (gs_val L tasks no_cpus - zdivq (t_cost t) no_cpus) * zdivq (t_cost t) (t_period t) + inject_Z (t_cost t)
  - Si_val t L tasks no_cpus.

(** G_val (gfrl.py:82-85) *)
Definition G_val (L : Q) (tasks : taskset) (no_cpus : Z) : Q :=
  qsum (nlargest (Qceiling (ts_utilization tasks None) - 1) (map (fun t => Gi_val t L tasks no_cpus) tasks)).

(** func_val (gfrl.py:94-96) *)
Definition func_val (L : Q) (tasks : taskset) (no_cpus : Z) : Q :=
  G_val L tasks no_cpus + S_val L tasks no_cpus - inject_Z no_cpus * gs_val L tasks no_cpus.

(** analysis_pps (gfrl.py:382-384), also gfrl_pp (gfrl.py:385-386) *)
Definition gfrl_pps (L : Q) (tasks : taskset) (no_cpus : Z) : list Q :=
  map (fun t => qmin2 (L * inject_Z (t_deadline t) - gs_val L tasks no_cpus - zdivq ((no_cpus - 1) * t_cost t) no_cpus)
                      (inject_Z (t_period t))) tasks.

(** what compute_response_bounds does (gfrl.py:107-108, 378, 387-389): return None or
    bounds, fail the assertion, or raise TypeError because the function that it calls
    takes three arguments (gel_pl.py:68), in which case the tasks have got gfrl_pp *)
Inductive gfrl_result :=
| GfrlNone
| GfrlBounds (bounds : list Z)
| GfrlAssertion
| GfrlTypeError (gfrl_pp : list Q)
| GfrlSearching.

(** compute_response_bounds (gfrl.py:102-389): [search] is what the search finds,
    None if it does not end or raises *)
Definition gfrl_response_bounds (search : option Q) (no_cpus : Z) (tasks : taskset) : gfrl_result :=
  if negb (has_bounded_tardiness no_cpus tasks) then GfrlNone
  else
    match search with
    | None => GfrlSearching
    | Some zero =>
        if Qeq_bool (func_val zero tasks no_cpus) 0 then GfrlTypeError (gfrl_pps zero tasks no_cpus) else GfrlAssertion
    end.
