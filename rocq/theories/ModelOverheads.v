(** Model of the overhead accounting: schedcat/overheads/{model,jlfp,fp,quanta,
    pfair,locking}.py.  Parameters are exact rationals.  The functions update
    task objects in place; here they return the updated list, [Rejected] for the
    result False and [Raised] for an exception (division by zero, assertion).
    Definitions only. *)
From Coq Require Import ZArith QArith Qround List Bool.
From Verif Require Import Base ModelTasks.
Import ListNotations.
Open Scope Q_scope.

(** result of a function that returns the task set or False (jlfp.py:15-18, 53-55, 83-86) *)
Inductive charged (A : Type) := Done (a : A) | Rejected | Raised.
Arguments Done {A} a.
Arguments Rejected {A}.
Arguments Raised {A}.

(** the attributes of a task the functions use: cost, period, deadline
    (tasks.py:15-26), wss (jlfp.py:12), early_releasing (jlfp.py:34) and jitter
    (fp.py:37; None if the attribute is missing) *)
Record otask := OTask { o_cost : Q; o_period : Q; o_deadline : Q; o_wss : Q; o_early : bool; o_jitter : option Q }.

(** min(self.period, self.deadline) (tasks.py:41) *)
Definition qmin (a b : Q) : Q := if Qle_bool a b then a else b.

(** density() (tasks.py:40-41 as used in jlfp.py:15): None is the division by zero *)
Definition odensity (cost period deadline : Q) : option Q :=
  let m := qmin period deadline in if Qeq_bool m 0 then None else Some (cost / m).

(** [if ti.density() > 1: return False] after the update of a task (jlfp.py:15-17, 83-84, locking.py:35-36) *)
Definition check_gt {A} (cost period deadline : Q) (t : A) : charged A :=
  match odensity cost period deadline with
  | None => Raised
  | Some d => if negb (Qle_bool d 1) then Rejected else Done t
  end.

(** the for loops: the first rejected task ends the function (jlfp.py:11-18, 72-86) *)
Fixpoint charge_all {A B} (f : A -> charged B) (ts : list A) : charged (list B) :=
  match ts with
  | [] => Done []
  | t :: r => match f t with
              | Done t' => match charge_all f r with Done r' => Done (t' :: r') | Rejected => Rejected | Raised => Raised end
              | Rejected => Rejected
              | Raised => Raised
              end
  end.

(** Overheads (model.py:6-36): functions of the number of tasks, and of the
    working set size for the two cache costs *)
Record overheads := Overheads {
  quantum_length : Q;
  ipi_latency : Q -> Q; schedule : Q -> Q; release : Q -> Q; ctx_switch : Q -> Q; tick : Q -> Q; release_latency : Q -> Q;
  lock : Q -> Q; unlock : Q -> Q; read_lock : Q -> Q; read_unlock : Q -> Q; syscall_in : Q -> Q; syscall_out : Q -> Q;
  cache_affinity_loss : Q -> Q; initial_cache_load : Q -> Q }.

(** Overheads.zero_overheads (model.py:30-36); the quantum length is kept *)
Definition zero_overheads (q : Q) : overheads :=
  let z := fun _ => 0 in Overheads q z z z z z z z z z z z z z z.

(** ** jlfp.py *)

(** len(taskset) (jlfp.py:21, 57) *)
Definition ntasks {A} (ts : list A) : Q := inject_Z (Z.of_nat (length ts)).

(** charge_initial_load (jlfp.py:6-18); None is an absent overhead object *)
Definition charge_initial_load (oh : option overheads) (ts : list otask) : charged (list otask) :=
  match oh with
  | None => Done ts
  | Some o => charge_all (fun t =>
      let load := initial_cache_load o (o_wss t) in
      if Qle_bool 0 load then
        let c := o_cost t + load in
        check_gt c (o_period t) (o_deadline t) (OTask c (o_period t) (o_deadline t) (o_wss t) (o_early t) (o_jitter t))
      else Raised) ts
  end.

(** urel (jlfp.py:33-36): None is a division by a zero period *)
Fixpoint sum_urel (rel : Q) (ts : list otask) : option Q :=
  match ts with
  | [] => Some 0
  | t :: r => if o_early t then sum_urel rel r
              else if Qeq_bool (o_period t) 0 then None
              else match sum_urel rel r with Some u => Some (rel / o_period t + u) | None => None end
  end.

(** n_rel_irq (jlfp.py:36) *)
Definition n_rel_irq (ts : list otask) : Q := ntasks (filter (fun t => negb (o_early t)) ts).

(** preemption_centric_irq_costs (jlfp.py:20-45): (uscale, cpre) *)
Definition irq_costs (o : overheads) (dedicated_irq : bool) (ts : list otask) : option (Q * Q) :=
  let n := ntasks ts in
  let tck := tick o n in
  let ev_lat := release_latency o n in
  if Qeq_bool (quantum_length o) 0 then None
  else
    let utick := tck / quantum_length o in
    match (if dedicated_irq then Some 0 else sum_urel (release o n) ts) with
    | None => None
    | Some urel =>
      let numerator := tck + ev_lat * utick in
      let numerator := if dedicated_irq then numerator else numerator + (n_rel_irq ts * release o n + ev_lat * urel) in
      let uscale := 1 - utick - urel in
      if Qeq_bool uscale 0 then None else Some (uscale, numerator / uscale)
    end.

(** heapq.nlargest(2, taskset, wss) (jlfp.py:59-60): like a stable descending
    sort; the first two with their positions *)
Definition insert_wss (p : nat * otask) (best : list (nat * otask)) : list (nat * otask) :=
  match best with
  | [] => [p]
  | a :: r => if negb (Qle_bool (o_wss (snd p)) (o_wss (snd a))) then p :: a :: r else
      match r with
      | [] => [a; p]
      | b :: _ => if negb (Qle_bool (o_wss (snd p)) (o_wss (snd b))) then [a; p] else [a; b]
      end
  end.

(** nlargest(2, ...) (jlfp.py:59-60) *)
Definition nlargest2 (ts : list otask) : list (nat * otask) :=
  firstn 2 (fold_left (fun best p => firstn 2 (insert_wss p best)) (combine (seq 0 (length ts)) ts) []).

(** CPMD charged to the task at position i (jlfp.py:59-60, 73-78) *)
Definition cpmd_of (o : overheads) (ts : list otask) (i : nat) : Q :=
  match nlargest2 ts with
  | [] => 0
  | (j, a) :: r => if negb (Nat.eqb i j) then cache_affinity_loss o (o_wss a)
                   else match r with (_, b) :: _ => cache_affinity_loss o (o_wss b) | [] => 0 end
  end.

(** charge_scheduling_overheads (jlfp.py:47-86) *)
Definition jlfp_charge (oh : option overheads) (num_cpus : Z) (dedicated_irq : bool) (ts : list otask) : charged (list otask) :=
  match oh with
  | None => Done ts
  | Some o =>
    match irq_costs o dedicated_irq ts with
    | None => Raised
    | Some (uscale, cpre) =>
      if Qle_bool uscale 0 then Rejected
      else
        let n := ntasks ts in
        let sched := 2 * (schedule o n + ctx_switch o n) in
        let irq_latency := release_latency o n in
        let unscaled := if dedicated_irq then 2 * cpre + ipi_latency o n + release o n
                        else if (1 <? num_cpus)%Z then 2 * cpre + ipi_latency o n
                        else 2 * cpre in
        charge_all (fun p =>
          let '(i, t) := p in
          let tasksched := sched + cpmd_of o ts i in
          let period := o_period t - irq_latency in
          let deadline := o_deadline t - irq_latency in
          let cost := (o_cost t + tasksched) / uscale + unscaled in
          check_gt cost period deadline (OTask cost period deadline (o_wss t) (o_early t) (o_jitter t)))
          (combine (seq 0 (length ts)) ts)
    end
  end.

(** quantize_params (jlfp.py:88-99) *)
Definition jlfp_quantize (ts : list otask) : charged (list otask) :=
  charge_all (fun t =>
    let cost := inject_Z (Qceiling (o_cost t)) in
    let period := inject_Z (Qfloor (o_period t)) in
    let deadline := inject_Z (Qfloor (o_deadline t)) in
    if Qeq_bool (qmin period deadline) 0 then Rejected
    else check_gt cost period deadline (OTask cost period deadline (o_wss t) (o_early t) (o_jitter t))) ts.

(** ** fp.py.  The overhead functions are applied to the task set itself, not
    to its length (fp.py:11-44); only constants support that, so that the model
    applies them to an arbitrary argument [x]. *)

(** SporadicTask(cost, period) with a jitter (fp.py:16-17, 25-27) *)
Definition isr_task (cost period jitter : Q) : otask := OTask cost period period 0 false (Some jitter).

(** charge_scheduling_overheads (fp.py:7-49) *)
Definition fp_charge (oh : option overheads) (x : Q) (dedicated_irq : bool) (ts : list otask) : list otask :=
  match oh, ts with
  | None, _ => ts
  | _, [] => ts
  | Some o, _ =>
    let event_latency := release_latency o x in
    let tck := tick o x in
    let tick_tasks := if negb (Qle_bool tck 0) then [isr_task tck (quantum_length o) event_latency] else [] in
    let rel_cost := release o x in
    let release_tasks := if negb dedicated_irq && negb (Qle_bool rel_cost 0)
                         then map (fun t => isr_task rel_cost (o_period t) event_latency) ts else [] in
    let release_delay := event_latency + release o x + (if dedicated_irq then ipi_latency o x else 0) in
    let preemption := 2 * (schedule o x + ctx_switch o x) + cache_affinity_loss o x in
    tick_tasks ++ release_tasks ++
    map (fun t => OTask (o_cost t + preemption) (o_period t) (o_deadline t) (o_wss t) (o_early t)
                        (Some ((match o_jitter t with Some j => j | None => 0 end) + release_delay))) ts
  end.

(** quantize_params (fp.py:51-63); a missing jitter is an AttributeError *)
Definition fp_quantize (ts : list otask) : charged (list otask) :=
  charge_all (fun t =>
    match o_jitter t with
    | None => Raised
    | Some j =>
      let cost := inject_Z (Qceiling (o_cost t)) in
      let period := inject_Z (Qfloor (o_period t)) in
      let deadline := inject_Z (Qfloor (o_deadline t)) in
      check_gt cost period deadline (OTask cost period deadline (o_wss t) (o_early t) (Some (inject_Z (Qceiling j))))
    end) ts.

(** ** quanta.py.  [x % y is 0] holds for integer objects only, so that numbers
    carry their type. *)

(** an int, or a float or Fraction (quanta.py:8) *)
Inductive num := NI (z : Z) | NF (q : Q).

(** its value (quanta.py:8) *)
Definition nq (n : num) : Q := match n with NI z => inject_Z z | NF q => q end.

(** a - b (quanta.py:55-56) *)
Definition nsub (a b : num) : num :=
  match a, b with NI x, NI y => NI (x - y) | _, _ => NF (nq a - nq b) end.

(** a + b (pfair.py:42, 52) *)
Definition nadd (a b : num) : num :=
  match a, b with NI x, NI y => NI (x + y) | _, _ => NF (nq a + nq b) end.

(** k * q for an int k (quanta.py:24, 39) *)
Definition nmul (k : Z) (q : num) : num := match q with NI z => NI (k * z) | NF x => NF (inject_Z k * x) end.

(** the attributes used by quanta.py:13-74 *)
Record qtask := QTask { q_cost : Q; q_period : num; q_deadline : num }.

(** is_quantum_multiple (quanta.py:7-8): value % qlen is 0; None is the division by zero *)
Definition is_quantum_multiple (qlen value : num) : option bool :=
  match qlen, value with
  | NI q, NI v => if (q =? 0)%Z then None else Some (v mod q =? 0)%Z
  | _, _ => if Qeq_bool (nq qlen) 0 then None else Some false
  end.

(** [if t.density() >= 1: return False] (quanta.py:25-26, 45-46, 57-58, 75-76) *)
Definition check_ge (t : qtask) : charged qtask :=
  match odensity (q_cost t) (nq (q_period t)) (nq (q_deadline t)) with
  | None => Raised
  | Some d => if Qle_bool 1 d then Rejected else Done t
  end.

(** quantize_wcet (quanta.py:13-27) *)
Definition quantize_wcet (qlen : num) (ts : list qtask) (effective_qlen : option Q) : charged (list qtask) :=
  let eff := match effective_qlen with Some e => e | None => nq qlen end in
  if Qle_bool eff 0 || Qle_bool (nq qlen) 0 then Raised
  else charge_all (fun t =>
    let nr_quanta := Qceiling (q_cost t / eff) in
    check_ge (QTask (inject_Z nr_quanta * nq qlen) (q_period t) (q_deadline t))) ts.

(** rounding of one parameter (quanta.py:37-40, 41-44): the arguments of
    is_quantum_multiple are swapped in the code *)
Definition round_down (qlen p : num) : option num :=
  match is_quantum_multiple p qlen with
  | None => None
  | Some true => Some p
  | Some false => if Qeq_bool (nq qlen) 0 then None else Some (nmul (Qfloor (nq p / nq qlen)) qlen)
  end.

(** quantize_period (quanta.py:29-47) *)
Definition quantize_period (qlen : num) (ts : list qtask) (deadline : bool) : charged (list qtask) :=
  charge_all (fun t =>
    match round_down qlen (q_period t) with
    | None => Raised
    | Some p => match (if deadline then round_down qlen (q_deadline t) else Some (q_deadline t)) with
                | None => Raised
                | Some d => check_ge (QTask (q_cost t) p d)
                end
    end) ts.

(** account_for_delayed_release (quanta.py:49-59) *)
Definition account_for_delayed_release (delay : num) (ts : list qtask) : charged (list qtask) :=
  charge_all (fun t => check_ge (QTask (q_cost t) (nsub (q_period t) delay) (nsub (q_deadline t) delay))) ts.

(** stagger_latency (quanta.py:61-62); a float *)
Definition stagger_latency (qlen num_cpus : Q) : Q := (num_cpus - 1) / num_cpus * qlen.

(** account_for_staggering (quanta.py:64-77) *)
Definition account_for_staggering (qlen num_cpus : Q) (ts : list qtask) : charged (list qtask) :=
  if Qeq_bool num_cpus 0 then Raised
  else account_for_delayed_release (NF (stagger_latency qlen num_cpus)) ts.

(** ** pfair.py *)

(** the values of the overhead functions for the task set, and the quantum
    length; as in fp.py the functions are applied to the task set (pfair.py:11-21) *)
Record pf_overheads := PfOverheads { p_qlen : num; p_ev_lat : num; p_rel : num; p_tick : Q; p_sched : Q; p_cxs : Q; p_cpmd : Q }.

(** charge_scheduling_overheads (pfair.py:5-58); total_cpus None is num_cpus *)
Definition pfair_charge (oh : option pf_overheads) (num_cpus : Z) (dedicated_irq : bool) (ts : list qtask)
  (staggered : bool) (total_cpus : option Z) (aligned : bool) : charged (list qtask) :=
  match oh, ts with
  | None, _ => Done ts
  | _, [] => Done ts
  | Some o, _ =>
    let qeff := nq (p_qlen o) - nq (p_ev_lat o) - p_tick o - p_sched o - p_cxs o - p_cpmd o in
    let qeff := if dedicated_irq then qeff else qeff - (ntasks ts - 1) * nq (p_rel o) in
    if Qle_bool qeff 0 then Rejected
    else
      match quantize_wcet (p_qlen o) ts (Some qeff) with
      | Done ts1 =>
        let delay := if aligned then NI 0 else nadd (nadd (p_qlen o) (p_ev_lat o)) (p_rel o) in
        let total := match total_cpus with Some c => c | None => num_cpus end in
        let delay := if staggered then nadd delay (NF (stagger_latency (inject_Z total) (nq (p_qlen o)))) else delay in
        match account_for_delayed_release delay ts1 with
        | Done ts2 => quantize_period (p_qlen o) ts2 true
        | Rejected => Rejected
        | Raised => Raised
        end
      | Rejected => Rejected
      | Raised => Raised
      end
  end.

(** ** locking.py *)

(** ResourceRequirement (resources.py:4-22): counts and lengths; the local length
    is set by charge_semaphore_overheads only (locking.py:94) *)
Record request := Request { r_reads : Z; r_writes : Z; r_read_length : Q; r_write_length : Q; r_write_length_local : option Q }.

(** a task with its resource model (resources.py:54-57) and the suspended attribute *)
Record ltask := LTask { lt_cost : Q; lt_period : Q; lt_deadline : Q; lt_suspended : Q; lt_reqs : list request }.

(** the checks at the end of each loop body (locking.py:34-36, 100-104, 140-143) *)
Definition finish_task (t : ltask) (reqs : list request) (extra_wcet extra_susp : Q) : charged ltask :=
  let cost := lt_cost t + inject_Z (Qceiling extra_wcet) in
  let susp := lt_suspended t + inject_Z (Qceiling extra_susp) in
  check_gt cost (lt_period t) (lt_deadline t) (LTask cost (lt_period t) (lt_deadline t) susp reqs).

(** body of the inner loop of charge_spinlock_overheads (locking.py:21-32): the
    new request and the additional cost *)
Definition spin_request (rcost wcost scost : Q) (r : request) : request * Q :=
  let '(rl, e1) := if negb (r_reads r =? 0)%Z
                   then (inject_Z (Qceiling (r_read_length r + rcost)), inject_Z (r_reads r) * rcost) else (r_read_length r, 0) in
  let '(wl, e2) := if negb (r_writes r =? 0)%Z
                   then (inject_Z (Qceiling (r_write_length r + wcost)), inject_Z (r_writes r) * wcost) else (r_write_length r, 0) in
  (Request (r_reads r) (r_writes r) rl wl (r_write_length_local r), e1 + e2 + inject_Z (r_writes r + r_reads r) * scost).

(** charge_spinlock_overheads (locking.py:7-37) *)
Definition charge_spinlock (oh : option overheads) (ts : list ltask) : charged (list ltask) :=
  match oh with
  | None => Done ts
  | Some o =>
    let n := ntasks ts in
    let rcost := read_lock o n + read_unlock o n in
    let wcost := lock o n + unlock o n in
    let scost := syscall_in o n + syscall_out o n in
    charge_all (fun t =>
      let rs := map (spin_request rcost wcost scost) (lt_reqs t) in
      finish_task t (map fst rs) (qsum (map snd rs)) 0) ts
  end.

(** request part shared by charge_semaphore_overheads and charge_dpcp_overheads
    (locking.py:88-98, 130-138): None is the failed assertion on reads.  [local]
    is the increase of the local length, if that is set *)
Fixpoint sem_requests (cs_increase exec_increase susp_increase : Q) (local : option Q) (rs : list request) : option (list request * Q * Q) :=
  match rs with
  | [] => Some ([], 0, 0)
  | r :: rest =>
    if negb (r_reads r =? 0)%Z then None
    else match sem_requests cs_increase exec_increase susp_increase local rest with
         | None => None
         | Some (rest', e, s) =>
           if negb (r_writes r =? 0)%Z then
             let loc := match local with Some l => Some (inject_Z (Qceiling (r_write_length r + l))) | None => r_write_length_local r end in
             Some (Request (r_reads r) (r_writes r) (r_read_length r) (inject_Z (Qceiling (r_write_length r + cs_increase))) loc :: rest',
                   inject_Z (r_writes r) * exec_increase + e, inject_Z (r_writes r) * susp_increase + s)
           else Some (r :: rest', e, s)
         end
  end.

(** charge_semaphore_overheads (locking.py:40-105) *)
Definition charge_semaphore (oh : option overheads) (preemptive suspension_aware : bool) (ts : list ltask) : charged (list ltask) :=
  match oh with
  | None => Done ts
  | Some o =>
    let n := ntasks ts in
    let sched := schedule o n + ctx_switch o n in
    let ipi := ipi_latency o n in
    let exec := 3 * sched + 2 * syscall_in o n + 2 * syscall_out o n + lock o n + unlock o n + 2 * cache_affinity_loss o n in
    let susp_increase := if suspension_aware then ipi else 0 in
    let exec := if suspension_aware then exec else exec + ipi in
    let cs := ipi + sched + syscall_out o n + syscall_in o n + unlock o n in
    let local := if preemptive then None else Some (cs + sched) in
    let cs := if preemptive then cs + sched else cs in
    charge_all (fun t => match sem_requests cs exec susp_increase local (lt_reqs t) with
                         | None => Raised
                         | Some (rs, e, s) => finish_task t rs e (if suspension_aware then s else 0)
                         end) ts
  end.

(** charge_dpcp_overheads (locking.py:107-144) *)
Definition charge_dpcp (oh : option overheads) (ts : list ltask) : charged (list ltask) :=
  match oh with
  | None => Done ts
  | Some o =>
    let n := ntasks ts in
    let sched := schedule o n + ctx_switch o n in
    let exec := syscall_in o n + syscall_out o n + 2 * sched + 2 * cache_affinity_loss o n in
    let cs := 3 * sched + syscall_in o n + syscall_out o n + lock o n + unlock o n in
    let susp_increase := 2 * ipi_latency o n + cs in
    charge_all (fun t => match sem_requests cs exec susp_increase None (lt_reqs t) with
                         | None => Raised
                         | Some (rs, e, s) => finish_task t rs e s
                         end) ts
  end.
