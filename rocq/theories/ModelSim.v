(** Model of the global EDF simulator: native/include/schedule_sim.h,
    native/src/schedule_sim.cpp, native/include/event.h, native/src/edf/sim.cpp and
    schedcat/sim/edf.py.  Definitions only.
    Simplifications: simtime_t is an unbounded integer; the job object of a
    periodic sequence is identified by the index of its task; the order of
    elements of equal priority in std::priority_queue, which the standard leaves
    open, is an arbitrary function [pick] for the ready queue and immaterial for
    the event queue. *)
From Coq Require Import ZArith List Bool.
From Verif Require Import Base ModelTasks.
Import ListNotations.
Open Scope Z_scope.

(** the parameters of the i-th task (schedule_sim.cpp:43-45) *)
Definition sim_task (ts : taskset) (i : nat) : task := nth i ts (Task 1 1 1).

(** Job (schedule_sim.h:12-18): release, allocation, seqno.  Simplification: the
    cost is always that of the task (schedule_sim.cpp:11-14,22-24). *)
Record simjob := SimJob { j_release : Z; j_alloc : Z; j_seqno : nat }.

(** Job::Job with default arguments (schedule_sim.h:21-24, schedule_sim.cpp:5-15) *)
Definition new_job : simjob := SimJob 0 0 1.

(** get_deadline (schedule_sim.h:28) *)
Definition job_deadline (t : task) (j : simjob) : Z := j_release j + t_deadline t.

(** increase_allocation (schedule_sim.h:43-46) *)
Definition increase_allocation (j : simjob) (service_time : Z) : simjob :=
  SimJob (j_release j) (j_alloc j + service_time) (j_seqno j).

(** is_complete (schedule_sim.h:48-51) *)
Definition is_complete (t : task) (j : simjob) : bool := t_cost t <=? j_alloc j.

(** remaining_demand (schedule_sim.h:53-56) *)
Definition remaining_demand (t : task) (j : simjob) : Z := t_cost t - j_alloc j.

(** init_next with default arguments (schedule_sim.h:58, schedule_sim.cpp:17-26) *)
Definition init_next (t : task) (j : simjob) : simjob :=
  SimJob (j_release j + (t_period t + 0)) 0 (S (j_seqno j)).

(** The members pending and events of GlobalScheduler (schedule_sim.h:175-176) and
    the array of job objects (schedule_sim.cpp:40-48).  An event is its time
    and the job it releases, or None for the dummy event (event.h:14-23). *)
Record queues := Queues { pending : list nat; events : list (Z * option nat); jobs : nat -> simjob }.

(** GlobalScheduler (schedule_sim.h:168-188).  [pops] counts the calls of
    pending.pop(); it only feeds [pick]. *)
Record simstate := Sim { now : Z; procs : list (option nat); qs : queues; pops : nat }.

(** assignment to the members of a job object (schedule_sim.h:45, schedule_sim.cpp:20-25) *)
Definition set_job (q : queues) (i : nat) (j : simjob) : queues :=
  Queues (pending q) (events q) (fun i' => if Nat.eqb i' i then j else jobs q i').

(** add_ready (schedule_sim.h:318-324) *)
Definition add_ready (q : queues) (i : nat) : queues := Queues (pending q ++ [i]) (events q) (jobs q).

(** add_release (schedule_sim.h:305-315) *)
Definition add_release (current_time : Z) (q : queues) (i : nat) : queues :=
  if current_time <=? j_release (jobs q i)
  then Queues (pending q) (events q ++ [(j_release (jobs q i), Some i)]) (jobs q)
  else add_ready q i.

(** PeriodicJobSequence::completed (schedule_sim.cpp:28-33) *)
Definition job_completed (ts : taskset) (current_time : Z) (q : queues) (i : nat) : queues :=
  add_release current_time (set_job q i (init_next (sim_task ts i) (jobs q i))) i.

(** What the callback job_completed (schedule_sim.h:298-299) can observe: the
    time, and the task, the number and the deadline of the job. *)
Record completion := Completion { c_time : Z; c_task : nat; c_seqno : nat; c_deadline : Z }.

(** 1) advance time (schedule_sim.h:198-209) and Processor::advance_time
    (schedule_sim.h:137-146): the new contents of the processors, the queues and
    the calls of job_completed in order *)
Fixpoint advance_procs (ts : taskset) (current_time delta : Z) (ps : list (option nat)) (q : queues)
  : list (option nat) * queues * list completion :=
  match ps with
  | [] => ([], q, [])
  | None :: r => let '(ps', q', l) := advance_procs ts current_time delta r q in (None :: ps', q', l)
  | Some i :: r =>
      let j := increase_allocation (jobs q i) delta in
      let q1 := set_job q i j in
      if is_complete (sim_task ts i) j
      then let '(ps', q', l) := advance_procs ts current_time delta r (job_completed ts current_time q1 i) in
           (None :: ps', q', Completion current_time i (j_seqno j) (job_deadline (sim_task ts i) j) :: l)
      else let '(ps', q', l) := advance_procs ts current_time delta r q1 in (Some i :: ps', q', l)
  end.

(** SimJob::fire (schedule_sim.h:89-92) and Event::fire of the dummy (event.h:10) *)
Definition fire (q : queues) (e : Z * option nat) : queues :=
  match snd e with Some i => add_ready q i | None => q end.

(** 2) process any pending events (schedule_sim.h:211-224) *)
Definition process_events (current_time : Z) (q : queues) : queues :=
  fold_left fire (filter (fun e => fst e <=? current_time) (events q))
    (Queues (pending q) (filter (fun e => negb (fst e <=? current_time)) (events q)) (jobs q)).

(** EarliestDeadlineFirst (schedule_sim.h:108-119): does a have lower priority than b? *)
Definition lower_prio (deadline : nat -> Z) (a b : option nat) : bool :=
  match a, b with
  | Some i, Some j => deadline j <? deadline i
  | None, Some _ => true
  | _, None => false
  end.

(** std::min_element with first_to_preempt (schedule_sim.h:151-160,233-235): the
    first processor that is idle or, else, whose job has the latest deadline.
    [best] is the index and the content of the smallest element so far. *)
Fixpoint min_element (deadline : nat -> Z) (best : nat * option nat) (k : nat) (ps : list (option nat)) : nat * option nat :=
  match ps with
  | [] => best
  | p :: r => min_element deadline (if lower_prio deadline p (snd best) then (k, p) else best) (S k) r
  end.

(** pending.top() (schedule_sim.h:230): some job with the earliest deadline *)
Definition queue_top (pick : nat -> nat) (n : nat) (deadline : nat -> Z) (l : list nat) : option nat :=
  let best := filter (fun i => forallb (fun i' => deadline i <=? deadline i') l) l in
  nth_error best (pick n mod length best).

(** removal of an element (schedule_sim.h:242) *)
Fixpoint remove_one (i : nat) (l : list nat) : list nat :=
  match l with
  | [] => []
  | x :: r => if Nat.eqb x i then r else x :: remove_one i r
  end.

(** processors[p].schedule(job) (schedule_sim.h:133,246) *)
Fixpoint set_proc (p : nat) (v : option nat) (ps : list (option nat)) : list (option nat) :=
  match ps, p with
  | [], _ => []
  | _ :: r, O => v :: r
  | x :: r, S p' => x :: set_proc p' v r
  end.

(** 3) process any required preemptions (schedule_sim.h:226-264).  None: out of
    fuel, or no processors (min_element returns the end of the array). *)
Fixpoint preemptions (fuel : nat) (pick : nat -> nat) (preemptive : bool) (ts : taskset) (st : simstate) : option simstate :=
  match fuel with
  | O => None
  | S f =>
      let q := qs st in
      let deadline i := job_deadline (sim_task ts i) (jobs q i) in
      match queue_top pick (pops st) deadline (pending q), procs st with
      | None, _ => Some st
      | Some _, [] => None
      | Some highest_prio, p :: r =>
          let (lowest_prio_proc, scheduled) := min_element deadline (O, p) 1 r in
          if (match scheduled with None => true | Some _ => preemptive end) && lower_prio deadline scheduled (Some highest_prio)
          then
            let rest := remove_one highest_prio (pending q) in
            let back := match scheduled with
                        | Some s => if negb (is_complete (sim_task ts s) (jobs q s)) then [s] else []
                        | None => []
                        end in
            let ev := (remaining_demand (sim_task ts highest_prio) (jobs q highest_prio) + now st, None) in
            preemptions f pick preemptive ts
              (Sim (now st) (set_proc lowest_prio_proc (Some highest_prio) (procs st))
                   (Queues (rest ++ back) (events q ++ [ev]) (jobs q)) (S (pops st)))
          else Some st
      end
  end.

(** advance_time (schedule_sim.h:192-265) *)
Definition advance_time (pick : nat -> nat) (preemptive : bool) (ts : taskset) (st : simstate) (until : Z)
  : option (simstate * list completion) :=
  let '(ps, q, log) := advance_procs ts until (until - now st) (procs st) (qs st) in
  match preemptions (S (length ps)) pick preemptive ts (Sim until ps (process_events until q) (pops st)) with
  | None => None
  | Some st' => Some (st', log)
  end.

(** events.top().time() (schedule_sim.h:291) *)
Definition next_event (a : Z * option nat) (r : list (Z * option nat)) : Z := fold_left (fun t e => Z.min t (fst e)) r (fst a).

(** simulate_until (schedule_sim.h:286-294).  [cb] is the callback
    job_completed, with the state it maintains; [aborted] says whether that
    callback has called abort() (schedule_sim.h:284).  None: out of fuel. *)
Fixpoint simulate_until {A} (fuel : nat) (pick : nat -> nat) (preemptive : bool) (ts : taskset)
    (cb : A -> completion -> A) (aborted : A -> bool) (end_of_simulation : Z) (st : simstate) (a : A) : option (simstate * A) :=
  match fuel with
  | O => None
  | S f =>
      if (now st <=? end_of_simulation) && negb (aborted a)
      then match events (qs st) with
           | [] => Some (st, a)
           | e :: r =>
               match advance_time pick preemptive ts st (next_event e r) with
               | None => None
               | Some (st', log) => simulate_until f pick preemptive ts cb aborted end_of_simulation st' (fold_left cb log a)
               end
           end
      else Some (st, a)
  end.

(** the constructor GlobalScheduler (schedule_sim.h:268-275) *)
Definition init_sim (num_procs : nat) : simstate := Sim 0 (repeat None num_procs) (Queues [] [] (fun _ => new_job)) 0.

(** run_periodic_simulation (schedule_sim.cpp:36-57) *)
Definition run_periodic_simulation {A} (fuel : nat) (pick : nat -> nat) (preemptive : bool) (num_procs : nat) (ts : taskset)
    (cb : A -> completion -> A) (aborted : A -> bool) (a : A) (end_of_simulation : Z) : option (simstate * A) :=
  let st := init_sim num_procs in
  simulate_until fuel pick preemptive ts cb aborted end_of_simulation
    (Sim (now st) (procs st) (fold_left (add_release (now st)) (seq 0 (length ts)) (qs st)) (pops st)) a.

(** DeadlineMissSearch (edf/sim.cpp:10-36): Some (when_missed, when_completed)
    once dmissed is set *)
Definition miss_cb (a : option (Z * Z)) (c : completion) : option (Z * Z) :=
  if c_deadline c <? c_time c then Some (c_deadline c, c_time c) else a.

(** deadline_was_missed (edf/sim.cpp:32-35), which is also when abort() was called *)
Definition missed (a : option (Z * Z)) : bool := match a with Some _ => true | None => false end.

(** edf_misses_deadline (edf/sim.cpp:83-92) *)
Definition edf_misses_deadline (fuel : nat) (pick : nat -> nat) (num_procs : nat) (ts : taskset) (end_of_simulation : Z) (preemptive : bool) : option bool :=
  match run_periodic_simulation fuel pick preemptive num_procs ts miss_cb missed None end_of_simulation with
  | None => None
  | Some (_, a) => Some (missed a)
  end.

(** edf_first_violation (edf/sim.cpp:69-81) *)
Definition edf_first_violation (fuel : nat) (pick : nat -> nat) (num_procs : nat) (ts : taskset) (end_of_simulation : Z) (preemptive : bool) : option Z :=
  match run_periodic_simulation fuel pick preemptive num_procs ts miss_cb missed None end_of_simulation with
  | None => None
  | Some (_, Some (when_missed, _)) => Some when_missed
  | Some (_, None) => Some 0
  end.

(** Stats (edf/sim.h:4-11) *)
Record stats := Stats { num_tardy_jobs : Z; num_ok_jobs : Z; total_tardiness : Z; max_tardiness : Z; first_miss : Z }.

(** Tardiness::job_completed (edf/sim.cpp:52-67) *)
Definition tardiness_cb (s : stats) (c : completion) : stats :=
  if c_deadline c <? c_time c
  then let tardiness := c_time c - c_deadline c in
       Stats (num_tardy_jobs s + 1) (num_ok_jobs s) (total_tardiness s + tardiness) (Z.max tardiness (max_tardiness s))
             (if first_miss s =? 0 then c_deadline c else first_miss s)
  else Stats (num_tardy_jobs s) (num_ok_jobs s + 1) (total_tardiness s) (max_tardiness s) (first_miss s).

(** edf_observe_tardiness (edf/sim.cpp:43-50,95-105) *)
Definition edf_observe_tardiness (fuel : nat) (pick : nat -> nat) (num_procs : nat) (ts : taskset) (end_of_simulation : Z) (preemptive : bool) : option stats :=
  match run_periodic_simulation fuel pick preemptive num_procs ts tardiness_cb (fun _ => false) (Stats 0 0 0 0 0) end_of_simulation with
  | None => None
  | Some (_, s) => Some s
  end.

(** is_deadline_missed (schedcat/sim/edf.py:8-10): the argument preemptive is not
    passed on.  [simulation_length] is given in microseconds. *)
Definition is_deadline_missed (fuel : nat) (pick : nat -> nat) (no_cpus : nat) (ts : taskset) (simulation_length : Z) (preemptive : bool) : option bool :=
  edf_misses_deadline fuel pick no_cpus ts simulation_length true.

(** time_of_first_miss (schedcat/sim/edf.py:12-14) *)
Definition time_of_first_miss (fuel : nat) (pick : nat -> nat) (no_cpus : nat) (ts : taskset) (simulation_length : Z) (preemptive : bool) : option Z :=
  edf_first_violation fuel pick no_cpus ts simulation_length true.

(** no_counter_example (schedcat/sim/edf.py:16-17) *)
Definition no_counter_example (fuel : nat) (pick : nat -> nat) (no_cpus : nat) (ts : taskset) (simulation_length : Z) (preemptive : bool) : option bool :=
  option_map negb (is_deadline_missed fuel pick no_cpus ts simulation_length preemptive).
