(** Model of the global fixed-priority analyses schedcat/sched/fp/bertogna.py
    and schedcat/sched/fp/guan.py and of the dispatch in
    schedcat/sched/fp/__init__.py.  Definitions only.  Numbers are exact: the
    true divisions under [floor] are floor divisions of integers. *)
From Coq Require Import ZArith List Bool.
From Verif Require Import Base ModelTasks ModelFP.
Import ListNotations.
Open Scope Z_scope.

(** A task with the optional attributes [blocked] (bertogna.py:55) and
    [hp_direct_blocked] (bertogna.py:88); [None]: not in [__dict__]. *)
Record gtask := GTask { g_task : task; g_blocked : option Z; g_hpdirect : option Z }.

(** a task and its [response_time] attribute (bertogna.py:64,108) *)
Definition ganalysed := (gtask * Z)%type.

(** workload_function (bertogna.py:18-30) *)
Definition workload_function (t : task) (time : Z) : Z :=
  let njobs := (time - t_cost t + t_deadline t) / t_period t in
  let carry_in := Z.min (t_cost t) (time - t_cost t + t_deadline t - t_period t * njobs) in
  t_cost t * njobs + carry_in.

(** slack_aware_workload_function (bertogna.py:32-49) *)
Definition slack_aware_workload_function (t : task) (response_time time : Z) : Z :=
  let slack := Z.max 0 (t_deadline t - response_time) in
  let njobs := (time - t_cost t - slack + t_deadline t) / t_period t in
  let carry_in := Z.min (t_cost t) (time - t_cost t + t_deadline t - slack - t_period t * njobs) in
  t_cost t * njobs + carry_in.

(** the demand computed in one iteration (bertogna.py:76-104) *)
Definition bert_demand (dont_use_slack : bool) (num_cpus : Z) (hp : list ganalysed) (t : gtask) (time : Z) : Z :=
  let hp_interference :=
    zsum (map (fun a => if dont_use_slack then workload_function (g_task (fst a)) time
                        else slack_aware_workload_function (g_task (fst a)) (snd a) time) hp) in
  let hp_interference :=
    match g_hpdirect t with Some b => Z.max (hp_interference - b) 0 | None => hp_interference end in
  t_cost (g_task t) + attr (g_blocked t) + hp_interference / num_cpus.

(** The search loop of both analyses (bertogna.py:74-116, guan.py:40-55) *)
Fixpoint grta_loop (fuel : nat) (demand : Z -> Z) (test_end time : Z) : outcome Z :=
  match fuel with
  | O => OutOfFuel
  | S f => if time <=? test_end
           then if demand time =? time then Accepted time else grta_loop f demand test_end (demand time)
           else Rejected
  end.

(** rta_schedulable (bertogna.py:51-116); [hp] is taskset[:i], so that its
    length is i.  [Accepted r] stands for True and [response_time = r]. *)
Definition bert_rta (fuel : nat) (dont_use_slack : bool) (num_cpus : Z) (hp : list ganalysed) (t : gtask) : outcome Z :=
  let blocked := attr (g_blocked t) in
  if Z.of_nat (length hp) <? num_cpus then
    if t_deadline (g_task t) <? t_cost (g_task t) + blocked then Rejected
    else Accepted (t_cost (g_task t) + blocked)
  else grta_loop fuel (bert_demand dont_use_slack num_cpus hp t) (t_deadline (g_task t)) (t_cost (g_task t) + blocked).

(** The result of is_schedulable: out of fuel, AssertionError (guan.py:29), or
    the verdict with the tasks analysed so far and their response times. *)
Inductive gfp_result := GFuel | GAssert | GDone (ok : bool) (done : list ganalysed).

(** all(... for k in xrange(len(tasks))) (bertogna.py:14, guan.py:16): stops at
    the first task that is not schedulable. *)
Fixpoint gfp_all (assertion : gtask -> bool) (rta : list ganalysed -> gtask -> outcome Z)
    (done : list ganalysed) (todo : list gtask) : gfp_result :=
  match todo with
  | [] => GDone true done
  | t :: rest =>
    if negb (assertion t) then GAssert
    else match rta done t with
         | OutOfFuel => GFuel
         | Rejected => GDone false done
         | Accepted r => gfp_all assertion rta (done ++ [(t, r)]) rest
         end
  end.

(** is_schedulable, bound_response_times (bertogna.py:13-16) *)
Definition bert_is_schedulable (fuel : nat) (dont_use_slack : bool) (num_cpus : Z) (ts : list gtask) : gfp_result :=
  gfp_all (fun _ => true) (bert_rta fuel dont_use_slack num_cpus) [] ts.

(** interference_with_carry_in (guan.py:60-73) *)
Definition interference_with_carry_in (ti : task) (response_time : Z) (tk : task) (time : Z) : Z :=
  let alpha_tmp := Z.max 0 (time - t_cost ti) mod t_period ti - (t_period ti - response_time) in
  let alpha := Z.min (Z.max alpha_tmp 0) (t_cost ti - 1) in
  let wk_ci := Z.max (time - t_cost ti) 0 / t_period ti * t_cost ti + t_cost ti + alpha in
  Z.min (Z.max wk_ci 0) (time - t_cost tk + 1).

(** interference_without_carry_in (guan.py:77-86) *)
Definition interference_without_carry_in (ti tk : task) (time : Z) : Z :=
  let wk_nc := time / t_period ti * t_cost ti + Z.min (time mod t_period ti) (t_cost ti) in
  Z.min (Z.max wk_nc 0) (time - t_cost tk + 1).

(** idiff.sort(reverse=True) (guan.py:107).  Simplification: insertion sort;
    only the sorted order matters. *)
Fixpoint zinsert_desc (x : Z) (l : list Z) : list Z :=
  match l with [] => [x] | y :: r => if y <=? x then x :: l else y :: zinsert_desc x r end.
(** idiff.sort(reverse=True) (guan.py:107) *)
Definition zsort_desc (l : list Z) : list Z := fold_right zinsert_desc [] l.  (* guan.py:107 *)

(** total_interference (guan.py:89-120) *)
Definition total_interference (tk : task) (hp : list ganalysed) (num_cpus time : Z) : Z :=
  let interf_nc := map (fun a => interference_without_carry_in (g_task (fst a)) tk time) hp in
  let idiff := map (fun a => interference_with_carry_in (g_task (fst a)) (snd a) tk time
                             - interference_without_carry_in (g_task (fst a)) tk time) hp in
  zsum (firstn (Z.to_nat (num_cpus - 1)) (zsort_desc idiff)) + zsum interf_nc.

(** the demand computed in one iteration (guan.py:41-45) *)
Definition guan_demand (num_cpus : Z) (hp : list ganalysed) (t : gtask) (time : Z) : Z :=
  t_cost (g_task t) + total_interference (g_task t) hp num_cpus time / num_cpus.

(** rta_schedulable_guan after the assertion (guan.py:23-55) *)
Definition guan_rta (fuel : nat) (num_cpus : Z) (hp : list ganalysed) (t : gtask) : outcome Z :=
  if Z.of_nat (length hp) <? num_cpus then
    if t_deadline (g_task t) <? t_cost (g_task t) then Rejected else Accepted (t_cost (g_task t))
  else grta_loop fuel (guan_demand num_cpus hp t) (t_deadline (g_task t)) (t_cost (g_task t)).

(** the assertion (guan.py:29) *)
Definition guan_assert (t : gtask) : bool := t_deadline (g_task t) <=? t_period (g_task t).

(** is_schedulable, bound_response_times (guan.py:15-18) *)
Definition guan_is_schedulable (fuel : nat) (num_cpus : Z) (ts : list gtask) : gfp_result :=
  gfp_all guan_assert (guan_rta fuel num_cpus) [] ts.

(** The tasks as the uniprocessor analysis reads them (rta.py:15-25): of the
    attributes modelled here it reads [blocked] only. Simplification: tasks
    without the attributes jitter, suspended and prio_inversion. *)
Definition uni_task (t : gtask) : fptask := FPTask (g_task t) (g_blocked t) None None None.
(** the result of the uniprocessor analysis in the terms of the global one (rta.py:87-111) *)
Definition uni_result (r : outcome (bool * list analysed)) (ts : list gtask) : gfp_result :=  (* rta.py:87-111, the recorded attributes *)
  match r with
  | Accepted (b, done) => GDone b (combine ts (map snd done))
  | _ => GFuel
  end.

(** is_schedulable and bound_response_times (schedcat/sched/fp/__init__.py:13-23) *)
Definition fp_is_schedulable (fuel : nat) (num_cpus : Z) (ts : list gtask) : gfp_result :=
  if num_cpus =? 1 then uni_result (bound_response_times fuel num_cpus (map uni_task ts)) ts
  else guan_is_schedulable fuel num_cpus ts.
