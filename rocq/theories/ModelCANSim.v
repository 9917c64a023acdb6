(** Model of the CAN bus simulator: native/src/canbus/can_sim.cpp,
    native/include/canbus/can_sim.h and the parts of
    native/include/schedule_sim.h, native/src/schedule_sim.cpp and
    native/include/event.h it uses.  Definitions only.
    Simplifications: simtime_t and int are unbounded integers; the job object of
    a periodic sequence is identified by the index of its task; which of several
    equal elements std::priority_queue puts on top, which the standard leaves
    open, is an arbitrary function [pick]; the random fault times
    (gen_host_faults, gen_retransmissions) are arbitrary lists. *)
From Coq Require Import ZArith List Bool.
From Verif Require Import Base.
Import ListNotations.
Open Scope Z_scope.

(** CANTask (canbus/msgs.h:15-50) and the inherited wcet, period and deadline.
    Simplification: the taskid, which the scheduler does not read, is left out. *)
Record cantask := CANTask { m_cost : Z; m_period : Z; m_deadline : Z; m_priority : Z; m_critical : bool }.

(** CANTaskSet::operator[] (canbus/msgs.h:171-172) *)
Definition msg_task (ts : list cantask) (i : nat) : cantask := nth i ts (CANTask 1 1 1 0 false).

(** Job (schedule_sim.h:12-18) and CANJob::host_faults (can_sim.h:26-31).
    Simplification: the cost is always that of the task (schedule_sim.cpp:11-14,22-24);
    the members omissions and commissions are never read. *)
Record canjob := CANJob { cj_release : Z; cj_alloc : Z; cj_seqno : Z; cj_faults : list Z }.

(** init_next with default arguments (schedule_sim.cpp:17-26) *)
Definition can_init_next (t : cantask) (j : canjob) : canjob :=
  CANJob (cj_release j + (m_period t + 0)) 0 (cj_seqno j + 1) (cj_faults j).

(** update_seqno (can_sim.cpp:16-25) *)
Definition update_seqno (t : cantask) (time : Z) (j : canjob) : canjob :=
  let expected_seqno := (time + 1) / m_period t + 1 in
  if cj_seqno j <? expected_seqno
  then CANJob ((expected_seqno - 1) * m_period t) (cj_alloc j) expected_seqno (cj_faults j)
  else j.

(** is_omission (can_sim.cpp:81-102): the result and what is left of host_faults *)
Fixpoint omission_scan (start stop : Z) (host_faults : list Z) : bool * list Z :=
  match host_faults with
  | [] => (false, [])
  | f :: r =>
      if stop <? f then (false, f :: r)
      else if (start <=? f) && (f <=? stop) then (true, f :: r)
      else omission_scan start stop r
  end.

(** is_omission (can_sim.cpp:81-84) *)
Definition is_omission (boot_time : Z) (j : canjob) : bool * list Z :=
  omission_scan (cj_release j - boot_time) (cj_release j) (cj_faults j).

(** is_retransmission (can_sim.cpp:284-302): the result and what is left of
    retransmissions *)
Fixpoint is_retransmission (start stop : Z) (retransmissions : list Z) : bool * list Z :=
  match retransmissions with
  | [] => (false, [])
  | f :: r =>
      if stop <? f then (false, f :: r)
      else if (start <=? f) && (f <=? stop) then (true, r)
      else is_retransmission start stop r
  end.

(** The handler of a Timeout (event.h:14-23): a job to release (can_sim.h:79-104),
    a DeadlineEvent with its own copy of seqno and release (can_sim.h:185-200), or
    the dummy event (can_sim.h:135) *)
Inductive canevent := EvRelease (i : nat) | EvDeadline (i : nat) (seqno release : Z) | EvDummy.

(** What the callbacks (can_sim.h:174-182) can observe: the time, and the task,
    number and release of the job *)
Inductive obs :=
| Released (time : Z) (i : nat) (seqno release : Z)
| Scheduled (time : Z) (i : nat) (seqno release : Z)
| Completed (time : Z) (i : nat) (seqno release : Z)
| Retransmitted (time : Z) (i : nat) (seqno release : Z)
| Omitted (time : Z) (i : nat) (seqno release : Z)
| Expired (time : Z) (i : nat) (seqno release : Z).

(** CANBusScheduler (can_sim.h:118-139), the job objects (can_sim.cpp:38-46) and
    the calls of the callbacks so far, newest first.  [cpops] counts the calls of
    pop(); it only feeds [pick]. *)
Record canstate := CANState {
  cnow : Z; cbus : option nat; cpending : list nat; cevents : list (Z * canevent);
  cjobs : nat -> canjob; cretr : list Z; cpops : nat; clog : list obs }.

(** events.push (can_sim.cpp:201,226,252) *)
Definition push_event (st : canstate) (e : Z * canevent) : canstate :=
  CANState (cnow st) (cbus st) (cpending st) (cevents st ++ [e]) (cjobs st) (cretr st) (cpops st) (clog st).

(** assignment to the members of a job object (can_sim.cpp:22-23,207, schedule_sim.cpp:20-25) *)
Definition put_job (st : canstate) (i : nat) (j : canjob) : canstate :=
  CANState (cnow st) (cbus st) (cpending st) (cevents st)
    (fun i' => if Nat.eqb i' i then j else cjobs st i') (cretr st) (cpops st) (clog st).

(** pending.push (can_sim.cpp:210,240) *)
Definition push_pending (st : canstate) (i : nat) : canstate :=
  CANState (cnow st) (cbus st) (cpending st ++ [i]) (cevents st) (cjobs st) (cretr st) (cpops st) (clog st).

(** a call of a callback (can_sim.cpp:151,161,197,213,231,243) *)
Definition notify (st : canstate) (o : Z -> nat -> Z -> Z -> obs) (i : nat) : canstate :=
  CANState (cnow st) (cbus st) (cpending st) (cevents st) (cjobs st) (cretr st) (cpops st)
    (o (cnow st) i (cj_seqno (cjobs st i)) (cj_release (cjobs st i)) :: clog st).

(** add_release (can_sim.cpp:246-256), given add_ready *)
Definition can_add_release (ready : canstate -> nat -> option canstate) (st : canstate) (i : nat) : option canstate :=
  if cnow st <=? cj_release (cjobs st i)
  then Some (push_event st (cj_release (cjobs st i), EvRelease i))
  else ready st i.

(** PeriodicCANJobSequence::completed (can_sim.cpp:27-32), given add_ready *)
Definition can_completed (ready : canstate -> nat -> option canstate) (ts : list cantask) (st : canstate) (i : nat)
  : option canstate :=
  can_add_release ready (put_job st i (can_init_next (msg_task ts i) (cjobs st i))) i.

(** add_ready (can_sim.cpp:216-244).  None: out of fuel (add_ready, completed and
    add_release call each other). *)
Fixpoint can_add_ready (fuel : nat) (ts : list cantask) (boot_time : Z) (st : canstate) (i : nat) : option canstate :=
  match fuel with
  | O => None
  | S f =>
      let t := msg_task ts i in
      let j := cjobs st i in
      let st1 := push_event st (cj_release j + m_deadline t, EvDeadline i (cj_seqno j) (cj_release j)) in
      let (omitted, faults) := if m_critical t then is_omission boot_time j else (false, cj_faults j) in
      let st2 := put_job st1 i (CANJob (cj_release j) (cj_alloc j) (cj_seqno j) faults) in
      if omitted
      then can_completed (can_add_ready f ts boot_time) ts (notify st2 Omitted i) i
      else Some (notify (push_pending st2 i) Released i)
  end.

(** removal of the k-th element that satisfies [best] (top and pop of
    std::priority_queue: can_sim.cpp:130,174,181,187-188) *)
Fixpoint extract {A} (best : A -> bool) (k : nat) (l : list A) : option (A * list A) :=
  match l with
  | [] => None
  | x :: r =>
      match best x, k with
      | true, O => Some (x, r)
      | true, S k' => match extract best k' r with Some (y, r') => Some (y, x :: r') | None => None end
      | false, _ => match extract best k r with Some (y, r') => Some (y, x :: r') | None => None end
      end
  end.

(** top and pop of a queue ordered by a key: some element with the smallest key
    (can_sim.h:58-74 for pending, event.h:35-43 for events) *)
Definition pop_min {A} (pick : nat -> nat) (n : nat) (key : A -> Z) (l : list A) : option (A * list A) :=
  let best x := forallb (fun y => key x <=? key y) l in
  extract best (pick n mod length (filter best l)) l.

(** SimCANJob::fire (can_sim.h:100-103), DeadlineEvent::fire (can_sim.h:195-199)
    and Event::fire of the dummy (event.h:10) *)
Definition can_fire (fuel : nat) (ts : list cantask) (boot_time : Z) (st : canstate) (e : canevent) : option canstate :=
  match e with
  | EvRelease i => can_add_ready fuel ts boot_time st i
  | EvDeadline i k r =>
      Some (CANState (cnow st) (cbus st) (cpending st) (cevents st) (cjobs st) (cretr st) (cpops st)
              (Expired (cnow st) i k r :: clog st))
  | EvDummy => Some st
  end.

(** 2) process any pending events (can_sim.cpp:171-182).  Simplification: the code
    fires the event before it pops it; the events pushed meanwhile are not earlier
    than the one fired ([fire_pushes_later] in ProofCANSim.v), so that one is still
    on top of the heap.  None: out of fuel. *)
Fixpoint can_process_events (fuel : nat) (pick : nat -> nat) (ts : list cantask) (boot_time : Z) (st : canstate)
  : option canstate :=
  match fuel with
  | O => None
  | S f =>
      match pop_min pick (cpops st) fst (cevents st) with
      | None => Some st
      | Some (e, rest) =>
          if cnow st <? fst e then Some st
          else match can_fire f ts boot_time
                       (CANState (cnow st) (cbus st) (cpending st) rest (cjobs st) (cretr st) (S (cpops st)) (clog st))
                       (snd e) with
               | None => None
               | Some st' => can_process_events f pick ts boot_time st'
               end
      end
  end.

(** 3) schedule if CAN bus is idle (can_sim.cpp:184-202) *)
Definition can_schedule (pick : nat -> nat) (ts : list cantask) (st : canstate) : canstate :=
  match cbus st, pop_min pick (cpops st) (fun i => m_priority (msg_task ts i)) (cpending st) with
  | None, Some (i, rest) =>
      let j := update_seqno (msg_task ts i) (cnow st) (cjobs st i) in
      let st1 := CANState (cnow st) (Some i) rest (cevents st) (cjobs st) (cretr st) (S (cpops st)) (clog st) in
      push_event (notify (put_job st1 i j) Scheduled i) (m_cost (msg_task ts i) - cj_alloc j + cnow st, EvDummy)
  | _, _ => st
  end.

(** current_time += (can_sim.cpp:156,167) *)
Definition delay (st : canstate) (d : Z) : canstate :=
  CANState (cnow st + d) (cbus st) (cpending st) (cevents st) (cjobs st) (cretr st) (cpops st) (clog st).

(** retransmit (can_sim.cpp:205-214) *)
Definition retransmit (st : canstate) (i : nat) : canstate :=
  let j := cjobs st i in
  notify (push_pending (put_job st i (CANJob (cj_release j) 0 (cj_seqno j) (cj_faults j))) i) Released i.

(** 1) advance time (can_sim.cpp:137-169) with Processor::advance_time
    (schedule_sim.h:137-146), IFS and EFS (can_sim.h:17-18).  [callback] is what
    the callback job_completed leaves of the host faults of the job
    (is_commission, can_sim.cpp:104-122, called by tardiness_stats.cpp:121-122). *)
Definition can_progress (fuel : nat) (ts : list cantask) (boot_time : Z) (callback : list obs -> list Z -> list Z)
    (st : canstate) (until : Z) : option canstate :=
  match cbus st with
  | None => Some (CANState until None (cpending st) (cevents st) (cjobs st) (cretr st) (cpops st) (clog st))
  | Some i =>
      let j := cjobs st i in
      let j' := CANJob (cj_release j) (cj_alloc j + (until - cnow st)) (cj_seqno j) (cj_faults j) in
      let st1 := put_job (CANState until (Some i) (cpending st) (cevents st) (cjobs st) (cretr st) (cpops st) (clog st)) i j' in
      if m_cost (msg_task ts i) <=? cj_alloc j'
      then
        let (hit, retr) := is_retransmission (until - m_cost (msg_task ts i)) until (cretr st) in
        let st2 := CANState until None (cpending st1) (cevents st1) (cjobs st1) retr (cpops st1) (clog st1) in
        if hit
        then Some (delay (retransmit (notify st2 Retransmitted i) i) 29)
        else
          let st3 := notify st2 Completed i in
          let st4 := put_job st3 i (CANJob (cj_release j') (cj_alloc j') (cj_seqno j') (callback (clog st3) (cj_faults j'))) in
          match can_completed (can_add_ready fuel ts boot_time) ts st4 i with
          | None => None
          | Some st5 => Some (delay st5 3)
          end
      else Some st1
  end.

(** advance_time (can_sim.cpp:135-203) *)
Definition can_advance_time (fuel : nat) (pick : nat -> nat) (ts : list cantask) (boot_time : Z)
    (callback : list obs -> list Z -> list Z) (st : canstate) (until : Z) : option canstate :=
  match can_progress fuel ts boot_time callback st until with
  | None => None
  | Some st1 =>
      match can_process_events fuel pick ts boot_time st1 with
      | None => None
      | Some st2 => Some (can_schedule pick ts st2)
      end
  end.

(** simulate_until (can_sim.cpp:124-133).  [aborted] says whether a callback has
    called abort() (can_sim.h:163).  None: out of fuel. *)
Fixpoint can_simulate_until (fuel : nat) (pick : nat -> nat) (ts : list cantask) (boot_time : Z)
    (callback : list obs -> list Z -> list Z) (aborted : list obs -> bool) (end_of_simulation : Z) (st : canstate)
  : option canstate :=
  match fuel with
  | O => None
  | S f =>
      if (cnow st <=? end_of_simulation) && negb (aborted (clog st))
      then match pop_min pick (cpops st) fst (cevents st) with
           | None => Some st
           | Some (e, _) =>
               match can_advance_time f pick ts boot_time callback st (fst e) with
               | None => None
               | Some st' => can_simulate_until f pick ts boot_time callback aborted end_of_simulation st'
               end
           end
      else Some st
  end.

(** the constructors of CANBusScheduler (can_sim.h:145-150) and of the jobs
    (can_sim.h:34-38, schedule_sim.cpp:4-15), with the faults to inject *)
Definition can_init (host_faults : nat -> list Z) (retransmissions : list Z) : canstate :=
  CANState 0 None [] [] (fun i => CANJob 0 0 1 (host_faults i)) retransmissions 0 [].

(** the loop of run_periodic_simulation that adds the jobs (can_sim.cpp:41-46) *)
Fixpoint can_add_jobs (fuel : nat) (ts : list cantask) (boot_time : Z) (l : list nat) (st : canstate) : option canstate :=
  match l with
  | [] => Some st
  | i :: r =>
      match can_add_release (can_add_ready fuel ts boot_time) st i with
      | None => None
      | Some st' => can_add_jobs fuel ts boot_time r st'
      end
  end.

(** run_periodic_simulation (can_sim.cpp:34-53) *)
Definition can_simulation (fuel : nat) (pick : nat -> nat) (ts : list cantask) (boot_time : Z)
    (callback : list obs -> list Z -> list Z) (aborted : list obs -> bool)
    (host_faults : nat -> list Z) (retransmissions : list Z) (end_of_simulation : Z) : option canstate :=
  match can_add_jobs fuel ts boot_time (seq 0 (length ts)) (can_init host_faults retransmissions) with
  | None => None
  | Some st => can_simulate_until fuel pick ts boot_time callback aborted end_of_simulation st
  end.
