(** Model of the classic analyses of the global priority inheritance protocol
    and of the parallel priority ceiling protocol (native/src/blocking/global-pip.cpp,
    native/src/blocking/ppcp.cpp and the parts of schedcat/locking/bounds.py that
    call them).  The subtractions of unsigned numbers wrap around, and so do the
    assignments to 32-bit variables; other numbers are unbounded.  Definitions only. *)
From Coq Require Import NArith ZArith List Bool.
From Verif Require Import ModelTasks ModelLocking ModelGFP.
Import ListNotations.
Open Scope N_scope.

(** the loops over the tasks of higher and of lower priority (iter-helper.h:39-47) *)
Definition higher_tasks (info : list taskinfo) (tsk : taskinfo) : list taskinfo := filter (fun t => ti_prio t <? ti_prio tsk) info.
(** iter-helper.h:44-47 *)
Definition lower_tasks (info : list taskinfo) (tsk : taskinfo) : list taskinfo := filter (fun t => ti_prio tsk <? ti_prio t) info.

(** subtraction of 64-bit unsigned numbers, as at global-pip.cpp:52, 68 *)
Definition sub64 (a b : N) : N := Z.to_N ((Z.of_N a - Z.of_N b) mod 2 ^ 64).
(** assignment to an unsigned int, as in the result at global-pip.cpp:45 *)
Definition u32 (a : N) : N := a mod 2 ^ 32.

(** common_sr_time (global-pip.cpp:16-40) *)
Definition common_sr_time (tsk tx : taskinfo) : N :=
  fold_left (fun sum request =>
    fold_left (fun sum tx_req => if Nat.eqb (q_res request) (q_res tx_req) then sum + q_len tx_req * q_num tx_req else sum)
      (ti_requests tx) sum)
    (ti_requests tsk) 0.

(** N_l_tx (global-pip.cpp:45-53) *)
Definition N_l_tx (t : N) (task : taskinfo) (x : N) : N := u32 (sub64 (t + ti_deadline task) x / ti_period task).

(** W_l_tx (global-pip.cpp:59-71) *)
Definition W_l_tx (t : N) (task : taskinfo) (x : N) : N :=
  x * N_l_tx t task x + N.min x (sub64 (t + ti_deadline task) (x + ti_period task * N_l_tx t task x)).

(** Ihp_i_dsr (global-pip.cpp:77-91) *)
Definition Ihp_i_dsr (info : list taskinfo) (tsk : taskinfo) : N :=
  fold_left (fun b th => b + W_l_tx (ti_response tsk) th (common_sr_time tsk th)) (higher_tasks info tsk) 0.

(** the longest request for a resource by tasks of lower priority (global-pip.cpp:106-122) *)
Definition max_lower_length (info : list taskinfo) (tsk : taskinfo) (res_id : nat) : N :=
  fold_left (fun mx tx =>
    fold_left (fun mx req => if Nat.eqb res_id (q_res req) && (mx <? q_len req) then q_len req else mx) (ti_requests tx) mx)
    (lower_tasks info tsk) 0.

(** DB_i (global-pip.cpp:96-129) *)
Definition DB_i (info : list taskinfo) (tsk : taskinfo) : N :=
  fold_left (fun sum request => sum + max_lower_length info tsk (q_res request) * q_num request) (ti_requests tsk) 0.

(** lower_priority_with_higher_ceiling_time (global-pip.cpp:135-155) *)
Definition lower_priority_with_higher_ceiling_time (tsk tx : taskinfo) (prio_ceilings : list N) : N :=
  fold_left (fun sum req => if nth (q_res req) prio_ceilings UNLIMITED <? ti_prio tsk then sum + q_len req * q_num req else sum)
    (ti_requests tx) 0.

(** Ilp_i (global-pip.cpp:161-178) *)
Definition Ilp_i (info : list taskinfo) (tsk : taskinfo) (number_of_cpus : N) : N :=
  divide_with_ceil
    (fold_left (fun sum tl => sum + W_l_tx (ti_response tsk) tl (lower_priority_with_higher_ceiling_time tsk tl (get_priority_ceilings info)))
      (lower_tasks info tsk) 0)
    number_of_cpus.

(** one iteration of global_pip_bounds (global-pip.cpp:190-209): get_blocking_term and get_local_blocking *)
Definition global_pip_task (info : list taskinfo) (number_of_cpus : N) (tsk : taskinfo) : N * N :=
  let dsr := Ihp_i_dsr info tsk in
  (DB_i info tsk + dsr + (if number_of_cpus <=? ti_prio tsk then Ilp_i info tsk number_of_cpus else 0), dsr).

(** global_pip_bounds (global-pip.cpp:181-212) *)
Definition global_pip_bounds (info : list taskinfo) (number_of_cpus : N) : list (N * N) :=
  map (global_pip_task info number_of_cpus) info.

(** ** P-PCP *)

(** the shift of a task (ppcp.cpp:77-82), an entry of the vector of unsigned int shift_value *)
Definition shift_value (R_i : N) (tl : taskinfo) (csl : N) : N :=
  if sub64 (ti_period tl) (ti_response tl) + 2 * csl <? R_i
  then u32 (sub64 (sub64 (R_i + ti_response tl) (ti_period tl)) (2 * csl))
  else if (csl <? R_i) && (R_i <=? sub64 (ti_period tl) (ti_response tl) + csl) then u32 (sub64 R_i csl)
  else 0.

(** the state of the inner loop at ppcp.cpp:99-109: considered_tasks, min, new_min_found, tl_id *)
Definition scan_step (shift : taskinfo -> N) (st : list nat * N * bool * nat) (tl : taskinfo) : list nat * N * bool * nat :=
  let '(considered, mn, found, _) := st in
  if existsb (Nat.eqb (ti_id tl)) considered && (shift tl <? mn)
  then (ti_id tl :: considered, shift tl, true, ti_id tl)
  else (considered, mn, found, ti_id tl).

(** one iteration of the outer loop (ppcp.cpp:94-113).  tl_id, which is not
    initialised at ppcp.cpp:98, starts as 0; it is read only if the inner loop
    has set it. *)
Definition shift_step (info : list taskinfo) (tsk : taskinfo) (shift csl : taskinfo -> N) (st : list nat * N) : list nat * N :=
  let '(considered, sum) := st in
  let '(considered', _, found, tl_id) := fold_left (scan_step shift) (lower_tasks info tsk) (considered, UNLIMITED, false, O) in
  (considered',
   if found then match nth_error info tl_id with Some t => sum + W_l_tx (ti_response tsk) t (csl t) | None => sum end else sum).

(** R_i_prime (ppcp.cpp:28, 84-88) *)
Definition R_i_prime (info : list taskinfo) (tsk : taskinfo) (csl : taskinfo -> N) : N :=
  sub64 (ti_response tsk)
    (fold_left (fun mn tl => if negb (csl tl =? 0) && (csl tl <? mn) then csl tl else mn) (lower_tasks info tsk) UNLIMITED).

(** Ilp_i_ppcp (ppcp.cpp:22-125).  The vector csl_value holds 32-bit numbers. *)
Definition Ilp_i_ppcp (info : list taskinfo) (tsk : taskinfo) (number_of_cpus : N) : N :=
  let ceilings := get_priority_ceilings info in
  let csl tl := lower_priority_with_higher_ceiling_time tsk tl ceilings in
  let shift tl := shift_value (ti_response tsk) tl (csl tl) in
  let '(considered, sum) := N.iter number_of_cpus (shift_step info tsk shift (fun tl => u32 (csl tl))) ([], 0) in
  divide_with_ceil
    (fold_left (fun sum tl => if existsb (Nat.eqb (ti_id tl)) considered then sum + W_l_tx (R_i_prime info tsk csl) tl (u32 (csl tl)) else sum)
      (lower_tasks info tsk) sum)
    number_of_cpus.

(** m_largest_values (ppcp.cpp:132-168): the sort is decreasing here, so that the
    values taken from the back come first *)
Definition m_largest_values (info : list taskinfo) (tsk : taskinfo) (res_k : nat) (number_of_cpus : N) : N :=
  let csls := map (fun tl => fold_left (fun mx req => if negb (Nat.eqb (q_res req) res_k) then N.max mx (q_len req) else mx) (ti_requests tl) 0)
    (lower_tasks info tsk) in
  fold_left N.add (firstn (N.to_nat number_of_cpus) (sort_len (fun x => x) csls)) 0.

(** sus_i (ppcp.cpp:172-187); the sum is an unsigned int *)
Definition sus_i (info : list taskinfo) (tsk : taskinfo) (number_of_cpus : N) : N :=
  fold_left (fun sum request => u32 (sum + q_num request * m_largest_values info tsk (q_res request) number_of_cpus)) (ti_requests tsk) 0.

(** compute_Ilp_i (ppcp.cpp:191-207) *)
Definition compute_Ilp_i (info : list taskinfo) (tsk : taskinfo) (number_of_cpus : N) (reasonable : bool) : N :=
  if reasonable then Ilp_i_ppcp info tsk number_of_cpus else Ilp_i info tsk number_of_cpus.

(** one iteration of ppcp_bounds (ppcp.cpp:219-246): get_blocking_term and get_local_blocking *)
Definition ppcp_task (info : list taskinfo) (number_of_cpus : N) (reasonable : bool) (tsk : taskinfo) : N * N :=
  let dsr := Ihp_i_dsr info tsk in
  (DB_i info tsk + dsr +
   (if number_of_cpus <=? ti_prio tsk then sus_i info tsk number_of_cpus + compute_Ilp_i info tsk number_of_cpus reasonable else 0), dsr).

(** ppcp_bounds (ppcp.cpp:209-249) *)
Definition ppcp_bounds (info : list taskinfo) (number_of_cpus : N) (reasonable : bool) : list (N * N) :=
  map (ppcp_task info number_of_cpus reasonable) info.

(** neighbours in order of deadline (bounds.py:46-49) *)
Fixpoint in_order (deadlines : list N) : bool :=
  match deadlines with
  | d :: ((d' :: _) as r) => if d' <? d then false else in_order r
  | _ => true
  end.

(** is_reasonable_priority_assignment (bounds.py:35-49) *)
Definition is_reasonable_priority_assignment (num_cpus : nat) (taskset : list taskinfo) : bool :=
  in_order (map ti_deadline (skipn num_cpus taskset)).

(** apply_classic_pip_bounds (bounds.py:164-179): the attributes blocked and
    hp_direct_blocked of each task *)
Definition apply_classic_pip_bounds (info : list taskinfo) (num_cpus : nat) : list (N * N) := global_pip_bounds info (N.of_nat num_cpus).

(** apply_classic_ppcp_bounds (bounds.py:181-196) *)
Definition apply_classic_ppcp_bounds (info : list taskinfo) (num_cpus : nat) : list (N * N) :=
  ppcp_bounds info (N.of_nat num_cpus) (is_reasonable_priority_assignment num_cpus info).

(** the task set as the analysis of bertogna.py sees it (bertogna.py:55, 88)
    after apply_classic_pip_bounds (bounds.py:168-177) *)
Definition pip_taskset (info : list taskinfo) (num_cpus : nat) : list gtask :=
  map (fun p => GTask (Task (Z.of_N (ti_cost (fst p))) (Z.of_N (ti_period (fst p))) (Z.of_N (ti_deadline (fst p))))
                      (Some (Z.of_N (fst (snd p)))) (Some (Z.of_N (snd (snd p)))))
    (combine info (apply_classic_pip_bounds info num_cpus)).
