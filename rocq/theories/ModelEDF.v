(** Model of the combined EDF analysis, schedcat/sched/edf/__init__.py, with the
    component tests as modelled (pure Python; ModelGEDF has is_schedulable_py).
    Definitions only. *)
From Coq Require Import ZArith QArith List Bool.
From Verif Require Import Base ModelTasks ModelGEDF ModelBAR ModelFFDBF ModelTardiness.
Import ListNotations.
Open Scope Z_scope.

(** is_schedulable_py (edf/__init__.py:47-80) with the tests as modelled.  FF-DBF
    runs with the defaults epsilon = 0.1 and sigma_granularity = 50 (ffdbf.py:82-83). *)
Definition full_test (fuel ffuel bfuel dfuel pfuel : nat) (no_cpus : Z) (ts : taskset) (step : Z) (th : threshold) (wr wf : bool) : option bool :=
  is_schedulable_py fuel ffuel (bar_test bfuel) (ffdbf_test dfuel pfuel (1 # 10) 50) no_cpus ts step th wr wf.

(** Outcome of bound_response_times (edf/__init__.py:112-132): True with the
    response_time attributes, False, or the AssertionError of da.py:83 *)
Inductive edf_result := EdfTrue (response_times : list Z) | EdfFalse | EdfAssert.

(** bound_response_times (edf/__init__.py:112-132).  [rta_step]: the keyword
    argument rta_min_step, None if absent; is_schedulable then takes its default 1
    and RTA 0 (line 116).  Simplification: the arguments of is_schedulable are
    passed by keyword.  None: out of fuel. *)
Definition edf_bound_response_times (fuel ffuel bfuel dfuel pfuel : nat) (no_cpus : Z) (ts : taskset)
  (rta_step : option Z) (th : threshold) (wr wf : bool) : option edf_result :=
  match full_test fuel ffuel bfuel dfuel pfuel no_cpus ts (match rta_step with Some x => x | None => 1 end) th wr wf with
  | None => None
  | Some true =>
    match rta_bounds fuel ffuel no_cpus ts 25 (match rta_step with Some x => x | None => 0 end) with
    | None => None
    | Some (Some rs) => Some (EdfTrue rs)
    | Some None => Some (EdfTrue (map t_deadline ts))
    end
  | Some false =>
    match da_bound_response_times no_cpus ts true with
    | DaTrue rs => Some (EdfTrue rs)
    | DaFalse => Some EdfFalse
    | DaAssert => Some EdfAssert
    end
  end.
