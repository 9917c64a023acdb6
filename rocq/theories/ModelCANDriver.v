(** Model of simulate_for_tardiness_stats (native/src/canbus/tardiness_stats.cpp:208-438)
    on top of the simulator (ModelCANSim).  Definitions only.
    Simplifications: the faults that gen_host_faults and gen_retransmissions draw are
    arbitrary lists (a rate of 0 is the empty list); one task id is modelled, once
    with its synchronous or asynchronous counters; doubles are exact, NaN is None. *)
From Coq Require Import ZArith QArith List Bool.
From Verif Require Import Base ModelCANSim.
Import ListNotations.
Open Scope Z_scope.

(** the faults drawn in an iteration (tardiness_stats.cpp:292-315) *)
Record config := Config { cf_hosts : nat -> list Z; cf_wire : list Z }.

(** vector::empty (can_sim.cpp:78, 281) *)
Definition null {A} (l : list A) : bool := match l with [] => true | _ => false end.

(** gen_host_faults for critical tasks and gen_retransmissions
    (tardiness_stats.cpp:292-315, can_sim.cpp:55-79, 267-282): the faults are appended *)
Definition inject_faults (ts : list cantask) (c : config) (st : canstate) : canstate :=
  CANState (cnow st) (cbus st) (cpending st) (cevents st)
    (fun i => let j := cjobs st i in
       CANJob (cj_release j) (cj_alloc j) (cj_seqno j)
         (if m_critical (msg_task ts i) then cj_faults j ++ cf_hosts c i else cj_faults j))
    (cretr st ++ cf_wire c) (cpops st) (clog st).

(** fault_free_sim (tardiness_stats.cpp:288-320) *)
Definition fault_free_sim (ts : list cantask) (st : canstate) : bool :=
  forallb (fun i => negb (m_critical (msg_task ts i)) || null (cj_faults (cjobs st i))) (seq 0 (length ts)) && null (cretr st).

(** reset_events_and_pending_queues (can_sim.cpp:258-265).  The queues are empty, so
    that the choice among equal elements starts anew. *)
Definition reset_queues (st : canstate) : canstate :=
  CANState (cnow st) (cbus st) [] [] (cjobs st) (cretr st) 0 (clog st).

(** reset_processors (can_sim.h:165) *)
Definition reset_processors (st : canstate) : canstate :=
  CANState (cnow st) None (cpending st) (cevents st) (cjobs st) (cretr st) (cpops st) (clog st).

(** reset_current_time (can_sim.h:164) *)
Definition reset_current_time (st : canstate) : canstate :=
  CANState 0 (cbus st) (cpending st) (cevents st) (cjobs st) (cretr st) (cpops st) (clog st).

(** reset_retransmissions (can_sim.h:166) *)
Definition reset_retransmissions (st : canstate) : canstate :=
  CANState (cnow st) (cbus st) (cpending st) (cevents st) (cjobs st) [] (cpops st) (clog st).

(** reset_sync_stats and reset_async_stats (tardiness_stats.cpp:31-55): the counters
    depend on what happens from now on *)
Definition reset_stats (st : canstate) : canstate :=
  CANState (cnow st) (cbus st) (cpending st) (cevents st) (cjobs st) (cretr st) (cpops st) [].

(** reset_params of all jobs (can_sim.cpp:7-14) *)
Definition reset_params (st : canstate) : canstate :=
  CANState (cnow st) (cbus st) (cpending st) (cevents st) (fun _ => CANJob 0 0 1 []) (cretr st) (cpops st) (clog st).

(** the end of an iteration (tardiness_stats.cpp:352-367).  Simplification: all jobs
    are reset before the first is added again, which only reads its own. *)
Definition restart (fuel : nat) (ts : list cantask) (boot_time : Z) (st : canstate) : option canstate :=
  can_add_jobs fuel ts boot_time (seq 0 (length ts))
    (reset_params (reset_stats (reset_retransmissions (reset_current_time (reset_processors (reset_queues st)))))).

(** ((double) faulty) / (ok + faulty) (tardiness_stats.cpp:336, 348): 0.0 / 0 is NaN *)
Definition failure_ratio (ok_faulty : nat * nat) : option Q :=
  let (ok, faulty) := ok_faulty in
  if Nat.eqb (ok + faulty) 0 then None else Some (inject_Z (Z.of_nat faulty) / inject_Z (Z.of_nat (ok + faulty)))%Q.

(** prob += (tardiness_stats.cpp:336, 348, 387, 399) *)
Definition nan_add (a b : option Q) : option Q :=
  match a, b with Some x, Some y => Some (x + y)%Q | _, _ => None end.

(** ... * num_fault_free_sims (tardiness_stats.cpp:387, 399) *)
Definition nan_times (a : option Q) (n : nat) : option Q :=
  match a with Some x => Some (x * inject_Z (Z.of_nat n))%Q | None => None end.

(** prob /= iterations (tardiness_stats.cpp:402-416) *)
Definition nan_over (a : option Q) (n : nat) : option Q :=
  match a with Some x => if Nat.eqb n 0 then None else Some (x / inject_Z (Z.of_nat n))%Q | None => None end.

(** the loop (tardiness_stats.cpp:286-368).  [counts k log] are the counters
    (num_ok_rounds, num_faulty_rounds) after the callbacks [log] in the k-th
    iteration, [callback k] what job_completed then does to the host faults. *)
Fixpoint run_iterations (fuel : nat) (pick : nat -> nat) (ts : list cantask) (boot_time : Z)
    (callback : nat -> list obs -> list Z -> list Z) (counts : nat -> list obs -> nat * nat) (sim_len : Z)
    (k : nat) (configs : list config) (st : canstate) (prob : option Q) (num_fault_free_sims : nat)
  : option (canstate * option Q * nat) :=
  match configs with
  | [] => Some (st, prob, num_fault_free_sims)
  | c :: r =>
      let st1 := inject_faults ts c st in
      if fault_free_sim ts st1
      then match restart fuel ts boot_time st1 with
           | None => None
           | Some st' => run_iterations fuel pick ts boot_time callback counts sim_len (S k) r st' prob (S num_fault_free_sims)
           end
      else match can_simulate_until fuel pick ts boot_time (callback k) (fun _ => false) sim_len st1 with
           | None => None
           | Some st2 =>
               match restart fuel ts boot_time st2 with
               | None => None
               | Some st' => run_iterations fuel pick ts boot_time callback counts sim_len (S k) r st'
                               (nan_add prob (failure_ratio (counts k (clog st2)))) num_fault_free_sims
               end
           end
  end.

(** simulate_for_tardiness_stats (tardiness_stats.cpp:208-438): the probability
    printed for a task id; one configuration for each iteration.  None: out of fuel. *)
Definition tardiness_stats (fuel : nat) (pick : nat -> nat) (ts : list cantask) (boot_time : Z)
    (callback : nat -> list obs -> list Z -> list Z) (counts : nat -> list obs -> nat * nat) (sim_len : Z)
    (configs : list config) : option (option Q) :=
  match can_add_jobs fuel ts boot_time (seq 0 (length ts)) (can_init (fun _ => []) []) with
  | None => None
  | Some st =>
      match run_iterations fuel pick ts boot_time callback counts sim_len 0 configs st (Some 0%Q) 0 with
      | None => None
      | Some (st', prob, free) =>
          if Nat.ltb 0 free
          then match can_simulate_until fuel pick ts boot_time (callback (length configs)) (fun _ => false) sim_len st' with
               | None => None
               | Some st2 =>
                   Some (nan_over (nan_add prob (nan_times (failure_ratio (counts (length configs) (clog st2))) free)) (length configs))
               end
          else Some (nan_over prob (length configs))
      end
  end.
