(** Model of get_job_completion_time (native/src/canbus/job_completion_stats.cpp,
    native/include/canbus/job_completion_stats.h) on top of the simulator
    (ModelCANSim).  Definitions only. *)
From Coq Require Import ZArith List Bool.
From Verif Require Import Base ModelCANSim.
Import ListNotations.
Open Scope Z_scope.

(** the condition of job_completed (job_completion_stats.cpp:6-8).  [ids] are the
    task ids, which ModelCANSim leaves out. *)
Definition wanted (ts : list cantask) (ids : list Z) (taskid priority seqno : Z) (o : obs) : bool :=
  match o with
  | Completed _ i q _ => (nth i ids 0 =? taskid) && (m_priority (msg_task ts i) =? priority) && (q =? seqno)
  | _ => false
  end.

(** aborted (can_sim.h:162-163): abort() has been called in job_completed
    (job_completion_stats.cpp:9-12) *)
Definition stats_aborted (ts : list cantask) (ids : list Z) (taskid priority seqno : Z) (log : list obs) : bool :=
  existsb (wanted ts ids taskid priority seqno) log.

(** completion_time (job_completion_stats.cpp:10): the last value assigned; the
    constructor (job_completion_stats.h:17-23) leaves it uninitialised: None *)
Fixpoint completion_time (ts : list cantask) (ids : list Z) (taskid priority seqno : Z) (log : list obs) : option Z :=
  match log with
  | [] => None
  | o :: r =>
      match o with
      | Completed t _ _ _ => if wanted ts ids taskid priority seqno o then Some t else completion_time ts ids taskid priority seqno r
      | _ => completion_time ts ids taskid priority seqno r
      end
  end.

(** get_job_completion_time (job_completion_stats.cpp:15-24, can_sim.cpp:34-53): no faults are
    generated, the callback leaves the (empty) lists of faults alone.  The outer None:
    out of fuel. *)
Definition get_job_completion_time (fuel : nat) (pick : nat -> nat) (ts : list cantask) (ids : list Z) (boot_time : Z)
    (end_of_simulation taskid priority seqno : Z) : option (option Z) :=
  match can_simulation fuel pick ts boot_time (fun _ faults => faults) (stats_aborted ts ids taskid priority seqno)
          (fun _ => []) [] end_of_simulation with
  | None => None
  | Some st => Some (completion_time ts ids taskid priority seqno (clog st))
  end.
