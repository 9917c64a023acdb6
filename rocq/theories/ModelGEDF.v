(** Model of the Python global EDF tests: schedcat/sched/edf/{gfb,bak,bcl,
    bcl_iterative,rta,__init__}.py.  A float quotient is an exact rational, and
    [int(floor(a / b))] with integer a, b is the floor division of Z.  The
    attributes bcl_slack and rta_slack of the task objects are a list parallel to
    the task list.  [t_i != t_k] compares objects, hence list positions.
    Definitions only. *)
From Coq Require Import ZArith QArith List Bool.
From Verif Require Import Base ModelTasks.
Import ListNotations.
Open Scope Z_scope.

(** The elements [x] of a list with [x != l[k]] (bcl.py:22, bcl_iterative.py:36-37, rta.py:32-33) *)
Definition others {A} (k : nat) (l : list A) : list A := firstn k l ++ skipn (S k) l.

(** Python's [max] of a non-empty list: the first largest element (gfb.py:10) *)
Definition max_list (first : Q) (rest : list Q) : Q :=
  fold_left (fun a b => if negb (Qle_bool b a) then b else a) rest first.

(** Python's [min] of two rationals: the first unless the second is smaller (bak.py:24, bcl.py:23) *)
Definition min_q (a b : Q) : Q := if negb (Qle_bool a b) then b else a.

(** gfb.is_schedulable (gfb.py:4-12) *)
Definition gfb_test (no_cpus : Z) (tasks : taskset) : bool :=
  match tasks with
  | [] => true
  | t :: r =>
    let dmax := max_list (density t) (map density r) in
    let bound := (inject_Z no_cpus - (inject_Z no_cpus - 1) * dmax)%Q in
    Qle_bool (ts_density tasks) bound
  end.

(** bak.beta (bak.py:10-18) *)
Definition bak_beta (t_i t_k : task) (l : Q) : Q :=
  let u_i := utilization t_i in
  let part1 := (u_i * (1 + zdivq (t_period t_i - t_deadline t_i) (t_deadline t_k)))%Q in
  if negb (Qle_bool u_i l) then
    let part2 := ((inject_Z (t_cost t_i) - l * inject_Z (t_period t_i)) / inject_Z (t_deadline t_k))%Q in
    (part1 + part2)%Q
  else part1.

(** bak.task_schedulable (bak.py:20-25) *)
Definition bak_task (T : taskset) (t_k : task) (m : Z) : bool :=
  let l := density t_k in
  if negb (Qle_bool l 1) then false
  else
    let beta_sum := qsum (map (fun t_i => min_q 1 (bak_beta t_i t_k l)) T) in
    Qle_bool beta_sum (inject_Z m - (inject_Z m - 1) * l).

(** bak.is_schedulable (bak.py:27-28) *)
Definition bak_test (no_cpus : Z) (tasks : taskset) : bool :=
  forallb (fun t_k => bak_task tasks t_k no_cpus) tasks.

(** bcl.N (bcl.py:8-10) *)
Definition bcl_N (t_k t_i : task) : Z := (t_deadline t_k - t_deadline t_i) / t_period t_i + 1.

(** numerator of bcl.beta (bcl.py:12-17) *)
Definition bcl_work (t_k t_i : task) : Z :=
  let N_i := bcl_N t_k t_i in
  N_i * t_cost t_i + Z.min (t_cost t_i) (Z.max 0 (t_deadline t_k - N_i * t_period t_i)).

(** bcl.beta (bcl.py:12-17) *)
Definition bcl_beta (t_k t_i : task) : Q := zdivq (bcl_work t_k t_i) (t_deadline t_k).

(** bcl.task_schedulable (bcl.py:19-25) *)
Definition bcl_task (T : taskset) (k : nat) (t_k : task) (m : Z) : bool :=
  let l_k := density t_k in
  let cap := (inject_Z m * (1 - l_k))%Q in
  let all_beta := map (bcl_beta t_k) (others k T) in
  let beta_sum := qsum (map (fun b => min_q b (1 - l_k)%Q) all_beta) in
  negb (Qle_bool cap beta_sum) ||
  (Qeq_bool beta_sum cap && existsb (fun b => negb (Qle_bool b 0) && Qle_bool b (1 - l_k)%Q) all_beta).

(** [for t_k in tasks] with the position of t_k (bcl.py:28) *)
Definition indexed {A} (l : list A) : list (nat * A) := combine (seq 0 (length l)) l.

(** bcl.is_schedulable (bcl.py:27-28) *)
Definition bcl_test (no_cpus : Z) (tasks : taskset) : bool :=
  forallb (fun p => bcl_task tasks (fst p) (snd p) no_cpus) (indexed tasks).

(** ** bcl_iterative.py.  [bcl_slack] starts as the float 0.0; here an integer. *)

(** edf_interfering_workload (bcl_iterative.py:25-29) *)
Definition bcli_workload (length : Z) (ti : task) (slack : Z) : Z :=
  let jobs := length / t_period ti in
  jobs * t_cost ti + Z.min (t_cost ti) (Z.max 0 (length - slack - jobs * t_period ti)).

(** edf_slack_update (bcl_iterative.py:31-41) *)
Definition edf_slack_update (k : nat) (tk : task) (tasks : taskset) (slack : list Z) (no_cpus : Z) : Z :=
  let other_work := zsum (map (fun p => Z.min (bcli_workload (t_deadline tk) (fst p) (snd p)) (t_deadline tk - t_cost tk + 1))
                              (others k (combine tasks slack))) in
  t_deadline tk - t_cost tk - other_work / no_cpus.

(** [list[k] = x]: the assignment to the slack attribute of a task (bcl_iterative.py:61, rta.py:76) *)
Definition set_nth {A} (k : nat) (x : A) (l : list A) : list A := firstn k l ++ x :: skipn (S k) l.

(** body of the for loop (bcl_iterative.py:57-61) *)
Definition bcli_step (no_cpus : Z) (tasks : taskset) (st : list Z * bool * bool) (p : nat * task) : list Z * bool * bool :=
  let '(slack, feasible, updated) := st in
  let '(k, tk) := p in
  let new_bound := edf_slack_update k tk tasks slack no_cpus in
  let old := nth k slack 0 in
  (set_nth k (Z.max old new_bound) slack, feasible && (0 <=? new_bound), updated || (old <? new_bound)).

(** one round (bcl_iterative.py:55-61) *)
Definition bcli_round (no_cpus : Z) (tasks : taskset) (slack : list Z) : list Z * bool * bool :=
  fold_left (bcli_step no_cpus tasks) (indexed tasks) (slack, true, false).

(** [updated and not feasible and (not round_limit or round < round_limit)]
    (bcl_iterative.py:53, rta.py:63-64); round_limit None is 0 *)
Definition continue (round_limit round : Z) (updated done : bool) : bool :=
  updated && negb done && ((round_limit =? 0) || (round <? round_limit)).

(** the while loop (bcl_iterative.py:53-62); the slack values are returned as well *)
Fixpoint bcli_loop (fuel : nat) (no_cpus : Z) (tasks : taskset) (round_limit round : Z) (slack : list Z) (updated feasible : bool)
  : option (bool * list Z) :=
  if continue round_limit round updated feasible then
    match fuel with
    | O => None
    | S f => let '(slack', feasible', updated') := bcli_round no_cpus tasks slack in
             bcli_loop f no_cpus tasks round_limit (round + 1) slack' updated' feasible'
    end
  else Some (feasible, slack).

(** is_schedulable (bcl_iterative.py:43-62) *)
Definition bcli_test (fuel : nat) (no_cpus : Z) (tasks : taskset) (round_limit : Z) : option (bool * list Z) :=
  bcli_loop fuel no_cpus tasks round_limit 0 (map (fun _ => 0) tasks) true false.

(** ** rta.py *)

(** rta_interfering_workload (rta.py:16-20) *)
Definition rta_interfering_workload (length : Z) (ti : task) (slack : Z) : Z :=
  let interval := length + t_deadline ti - t_cost ti - slack in
  let jobs := interval / t_period ti in
  jobs * t_cost ti + Z.min (t_cost ti) (interval mod t_period ti).

(** edf_interfering_workload (rta.py:22-27) *)
Definition edf_interfering_workload (length : Z) (ti : task) (slack : Z) : Z :=
  let jobs := length / t_period ti in
  jobs * t_cost ti + Z.min (t_cost ti) (Z.max 0 (length mod t_period ti - slack)).

(** response_estimate (rta.py:29-37) *)
Definition response_estimate (k : nat) (tk : task) (tasks : taskset) (slack : list Z) (no_cpus response_time : Z) : Z :=
  let delay_limit := response_time - t_cost tk + 1 in
  let cumulative_work := zsum (map (fun p =>
      Z.min (Z.min (rta_interfering_workload response_time (fst p) (snd p))
                   (edf_interfering_workload (t_deadline tk) (fst p) (snd p))) delay_limit)
    (others k (combine tasks slack))) in
  t_cost tk + cumulative_work / no_cpus.

(** the while loop of rta_fixpoint (rta.py:45-50).  [min_delta] None behaves
    like 0 in Python 2, where no integer is smaller than None. *)
Fixpoint rta_fix_loop (fuel : nat) (est : Z -> Z) (deadline min_delta last resp : Z) : option Z :=
  if negb (last =? resp) && (resp <=? deadline) then
    match fuel with
    | O => None
    | S f => let resp' := if (last <? resp) && (resp - last <? min_delta) then Z.min (last + min_delta) deadline else resp in
             rta_fix_loop f est deadline min_delta resp' (est resp')
    end
  else Some resp.

(** rta_fixpoint (rta.py:39-50) *)
Definition rta_fixpoint (fuel : nat) (k : nat) (tk : task) (tasks : taskset) (slack : list Z) (no_cpus min_delta : Z) : option Z :=
  let est := response_estimate k tk tasks slack no_cpus in
  rta_fix_loop fuel est (t_deadline tk) min_delta (t_cost tk) (est (t_cost tk)).

(** body of the for loop (rta.py:68-80) *)
Definition rta_step (fuel : nat) (no_cpus min_delta : Z) (tasks : taskset) (st : option (list Z * bool * bool)) (p : nat * task)
  : option (list Z * bool * bool) :=
  match st with
  | None => None
  | Some (slack, schedulable, updated) =>
    let '(k, tk) := p in
    match rta_fixpoint fuel k tk tasks slack no_cpus min_delta with
    | None => None
    | Some response =>
      if response <=? t_deadline tk then
        let new_slack := t_deadline tk - response in
        if negb (new_slack =? nth k slack 0) then Some (set_nth k new_slack slack, schedulable, true)
        else Some (slack, schedulable, updated)
      else Some (slack, false, updated)
    end
  end.

(** one round (rta.py:66-80) *)
Definition rta_round (fuel : nat) (no_cpus min_delta : Z) (tasks : taskset) (slack : list Z) : option (list Z * bool * bool) :=
  fold_left (rta_step fuel no_cpus min_delta tasks) (indexed tasks) (Some (slack, true, false)).

(** the while loop (rta.py:63-81); the slack values are returned as well *)
Fixpoint rta_loop (fuel ffuel : nat) (no_cpus min_delta : Z) (tasks : taskset) (round_limit round : Z) (slack : list Z)
  (updated schedulable : bool) : option (bool * list Z) :=
  if continue round_limit round updated schedulable then
    match fuel with
    | O => None
    | S f => match rta_round ffuel no_cpus min_delta tasks slack with
             | None => None
             | Some (slack', schedulable', updated') =>
               rta_loop f ffuel no_cpus min_delta tasks round_limit (round + 1) slack' updated' schedulable'
             end
    end
  else Some (schedulable, slack).

(** is_schedulable (rta.py:52-81) *)
Definition rta_test (fuel ffuel : nat) (no_cpus : Z) (tasks : taskset) (round_limit min_fixpoint_step : Z) : option (bool * list Z) :=
  rta_loop fuel ffuel no_cpus min_fixpoint_step tasks round_limit 0 (map (fun _ => 0) tasks) true false.

(** bound_response_times (rta.py:83-89): the response_time attributes, None for
    False; the outer option is the fuel *)
Definition rta_bounds (fuel ffuel : nat) (no_cpus : Z) (tasks : taskset) (round_limit min_fixpoint_step : Z) : option (option (list Z)) :=
  match rta_test fuel ffuel no_cpus tasks round_limit min_fixpoint_step with
  | None => None
  | Some (true, slack) => Some (Some (map (fun p => t_deadline (fst p) - snd p) (combine tasks slack)))
  | Some (false, _) => Some None
  end.

(** ** edf/__init__.py *)

(** the argument want_baruah: True, False or a number (edf/__init__.py:31-35) *)
Inductive threshold := TTrue | TFalse | TLimit (q : Q).

(** should_use_baruah_test (edf/__init__.py:31-43) *)
Definition should_use_baruah_test (th : threshold) (tasks : taskset) (no_cpus : Z) : bool :=
  match th with
  | TTrue => true
  | TFalse => false
  | TLimit q =>
    let slack := (inject_Z no_cpus - ts_utilization tasks None)%Q in
    if Qeq_bool slack 0 then false
    else
      let n := inject_Z (Z.of_nat (length tasks)) in
      let score := (n * (inject_Z no_cpus * inject_Z no_cpus) / (slack * slack))%Q in
      Qle_bool score q
  end.

(** is_schedulable_py (edf/__init__.py:46-82).  The tests of bar.py and ffdbf.py
    are parameters here; None stands for a loop that does not end. *)
Definition is_schedulable_py (fuel ffuel : nat) (bar ffdbf : Z -> taskset -> option bool)
  (no_cpus : Z) (tasks : taskset) (rta_min_step : Z) (want_baruah : threshold) (want_rta want_ffdbf : bool) : option bool :=
  if negb (Qle_bool (ts_utilization tasks None) (inject_Z no_cpus)) || negb (forallb (fun t => t_cost t <=? t_period t) tasks)
  then Some false
  else
    let not_arbitrary := only_constrained_deadlines tasks in
    if (no_cpus =? 1) && Qle_bool (ts_density tasks) 1 then Some true
    else if 1 <? no_cpus then
      if bak_test no_cpus tasks then Some true
      else if not_arbitrary then
        if gfb_test no_cpus tasks then Some true
        else match (if should_use_baruah_test want_baruah tasks no_cpus then bar no_cpus tasks else Some false) with
             | None => None
             | Some true => Some true
             | Some false =>
               match (if want_rta then rta_test fuel ffuel no_cpus tasks 25 rta_min_step else Some (false, [])) with
               | None => None
               | Some (true, _) => Some true
               | Some (false, _) => if want_ffdbf then ffdbf no_cpus tasks else Some false
               end
             end
      else Some false
    else Some false.
