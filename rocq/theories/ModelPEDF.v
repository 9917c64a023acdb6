(** Model of the LP-based schedulability test for partitioned EDF with
    non-preemptive FIFO spin locks (MSRP): native/src/blocking/linprog/
    lp_pedf_analysis.cpp (processor-demand criterion with QPA),
    lp_pedf_spinlocks_common.cpp (linear program) and lp_pedf_msrp.cpp, called by
    pedf_msrp_is_schedulable (schedcat/locking/bounds.py:589-592).  Integers are
    in Z; [u] is what the machine makes of the result of an addition,
    subtraction or multiplication of type unsigned long: [u64], or [exact] for
    integers that never leave their range.  Doubles are exact rationals and the
    solver is a parameter.  The branches under __PEDF_BLK_ANALYSIS_ENABLE_*__
    and the debug output are disabled (lp_pedf_analysis.h:10-19) and not
    modelled, nor is raw_PDC, which is not called.  Definitions only. *)
From Coq Require Import NArith ZArith QArith Qround List Bool.
From Verif Require Import ModelLocking ModelLP ModelLPSpin.
Import ListNotations.
Open Scope Z_scope.

(** unsigned long (64 bits), e.g. lp_pedf_analysis.cpp:182-185 *)
Definition u64 (z : Z) : Z := z mod 18446744073709551616.
(** integers without bounds; no counterpart in the code (lp_pedf_analysis.cpp:182-185) *)
Definition exact (z : Z) : Z := z.

(** divide_with_ceil (math-helper.h:6-14) *)
Definition div_ceil (a b : Z) : Z := if a mod b =? 0 then a / b else a / b + 1.

(** get_period, get_deadline and get_cost (sharedres_types.h:135-139) *)
Definition period (t : taskinfo) : Z := Z.of_N (ti_period t).
(** sharedres_types.h:136 *)
Definition deadline (t : taskinfo) : Z := Z.of_N (ti_deadline t).
(** sharedres_types.h:139 *)
Definition cost (t : taskinfo) : Z := Z.of_N (ti_cost t).

(** get_pedf_max_num_remote_jobs (sharedres_types.h:180-185) *)
Definition max_num_remote_jobs (u : Z -> Z) (t : taskinfo) (interval : Z) : Z := div_ceil (u (interval + deadline t)) (period t).
(** get_pedf_PDC_max_num_local_jobs (sharedres_types.h:187-192) *)
Definition PDC_max_num_local_jobs (u : Z -> Z) (t : taskinfo) (interval : Z) : Z :=
  let num_jobs := u (u (interval + period t) - deadline t) / period t in if 0 <? num_jobs then num_jobs else 0.
(** get_pedf_AC_max_num_local_jobs (sharedres_types.h:194-199) *)
Definition AC_max_num_local_jobs (t : taskinfo) (interval : Z) : Z := div_ceil interval (period t).

(** foreach_task_in_cluster (iter-helper.h:75-77) *)
Definition tasks_in (c : nat) (info : list taskinfo) : list taskinfo := filter (fun t => Nat.eqb (ti_cluster t) c) info.
(** foreach_task_not_in_cluster (iter-helper.h:91-93) *)
Definition tasks_not_in (c : nat) (info : list taskinfo) : list taskinfo := filter (fun t => negb (Nat.eqb (ti_cluster t) c)) info.
(** foreach_task_in_cluster_having_leq_dline (iter-helper.h:79-81) *)
Definition tasks_leq_dline (c : nat) (delta : Z) (info : list taskinfo) : list taskinfo :=
  filter (fun t => Nat.eqb (ti_cluster t) c && (deadline t <=? delta)) info.
(** foreach_task_in_cluster_having_gt_dline (iter-helper.h:83-85) *)
Definition tasks_gt_dline (c : nat) (delta : Z) (info : list taskinfo) : list taskinfo :=
  filter (fun t => Nat.eqb (ti_cluster t) c && (delta <? deadline t)) info.

(** * The analysis of a processor (lp_pedf_analysis.cpp) *)

(** the largest deadline, in the constructor (lp_pedf_analysis.cpp:61-64) *)
Definition max_deadline (info : list taskinfo) (c : nat) : Z :=
  fold_left (fun m t => if deadline t <? m then m else deadline t) (tasks_in c info) 0.
(** the smallest deadline (lp_pedf_analysis.cpp:66-69) *)
Definition min_deadline (info : list taskinfo) (c : nat) : Z :=
  fold_left (fun m t => if deadline t <? m then deadline t else m) (tasks_in c info) (max_deadline info c).

(** DBF (lp_pedf_analysis.cpp:72-79) *)
Definition DBF (u : Z -> Z) (info : list taskinfo) (c : nat) (interval : Z) : Z :=
  fold_left (fun r t => u (r + u (PDC_max_num_local_jobs u t interval * cost t))) (tasks_in c info) 0.
(** arrival_curve (lp_pedf_analysis.cpp:81-88) *)
Definition arrival_curve (u : Z -> Z) (info : list taskinfo) (c : nat) (interval : Z) : Z :=
  fold_left (fun r t => u (r + u (AC_max_num_local_jobs t interval * cost t))) (tasks_in c info) 0.

(** if (d == interval_length) d = d - period; if (d > last) last = d (lp_pedf_analysis.cpp:184-187, 192-195, 206-209) *)
Definition consider (u : Z -> Z) (t : taskinfo) (interval d last : Z) : Z :=
  let d := if d =? interval then u (d - period t) else d in if last <? d then d else last.
(** the loop body of last_check_point_before (lp_pedf_analysis.cpp:178-211) *)
Definition check_point_step (u : Z -> Z) (c : nat) (interval last : Z) (t : taskinfo) : Z :=
  if Nat.eqb (ti_cluster t) c then
    if deadline t <? interval then
      let last := consider u t interval (u (u (u (interval - deadline t) / period t * period t) + deadline t)) last in
      let njobs := div_ceil interval (period t) in
      consider u t interval (u (u (u (njobs - 1) * period t) + 1)) last
    else last
  else
    let njobs := div_ceil (u (interval + deadline t)) (period t) in
    if 1 <? njobs then consider u t interval (u (u (u (u (njobs - 1) * period t) - deadline t) + 1)) last else last.
(** last_check_point_before (lp_pedf_analysis.cpp:172-215) *)
Definition last_check_point_before (u : Z -> Z) (info : list taskinfo) (c : nat) (interval : Z) : Z :=
  fold_left (check_point_step u c interval) info 0.

(** the virtual functions of an analysis (lp_pedf_analysis.h:35-43): compute_blocking_PDC,
    compute_blocking_AC and compute_tighter_blocking_PDC (interval, upper and lower bound) *)
Record analysis := Analysis { blocking_PDC : Z -> Z; blocking_AC : Z -> Z; tighter_PDC : Z -> Z -> Z -> Z }.

(** the loop of QPA (lp_pedf_analysis.cpp:235-286): the verdict and blk_LB_out; None: out of fuel *)
Fixpoint qpa_loop (fuel : nat) (u : Z -> Z) (info : list taskinfo) (c : nat) (a : analysis) (t_LB blk_LB_in : Z)
    (check_point blk_LB_out : Z) (found : bool) : option (bool * Z) :=
  match fuel with
  | O => None
  | S f =>
    if check_point <? t_LB then Some (true, blk_LB_out)
    else
      let blk := blocking_PDC a check_point in
      let total_demand := u (DBF u info c check_point + blk) in
      let next total := if total <? check_point then total else last_check_point_before u info c check_point in
      if total_demand <? t_LB then Some (true, blk_LB_out)
      else if check_point <? total_demand then
        let blk' := tighter_PDC a check_point blk blk_LB_in in
        let total' := u (DBF u info c check_point + blk') in
        let out' := if found then blk_LB_out else blk' in
        if check_point <? total' then Some (false, out')
        else qpa_loop f u info c a t_LB blk_LB_in (next total') out' true
      else qpa_loop f u info c a t_LB blk_LB_in (next total_demand) blk_LB_out found
  end.
(** QPA (lp_pedf_analysis.cpp:223-287) *)
Definition QPA (fuel : nat) (u : Z -> Z) (info : list taskinfo) (c : nat) (a : analysis) (t_LB t_UB blk_LB_in : Z) : option (bool * Z) :=
  qpa_loop fuel u info c a t_LB blk_LB_in (last_check_point_before u info c t_UB) blk_LB_in false.

(** the loop of is_schedulable (lp_pedf_analysis.cpp:127-155) *)
Fixpoint schedulable_loop (fuel qfuel : nat) (u : Z -> Z) (info : list taskinfo) (c : nat) (a : analysis) (last blk_LB : Z) : option bool :=
  match fuel with
  | O => None
  | S f =>
    let new := u (arrival_curve u info c last + blocking_AC a last) in
    if new =? last then Some true
    else
      let t_LB := if min_deadline info c <? last then last else min_deadline info c in
      match QPA qfuel u info c a t_LB new blk_LB with
      | None => None
      | Some (false, _) => Some false
      | Some (true, out) => schedulable_loop f qfuel u info c a new out
      end
  end.
(** is_schedulable (lp_pedf_analysis.cpp:97-169) *)
Definition is_schedulable (fuel : nat) (u : Z -> Z) (info : list taskinfo) (c : nat) (a : analysis) : option bool :=
  schedulable_loop fuel fuel u info c a 1 0.

(** * The linear program (lp_pedf_spinlocks_common.cpp) *)

(** analysis_type_t (lp_pedf_analysis.h:60-64) *)
Inductive mode := AC_MODE | PDC_MODE.

(** variable_type_t (lp_pedf_spinlocks_common.h:13-19) *)
Inductive stype := SPIN_BLOCKING | ARRIVAL_BLOCKING | INDICATOR_ARRIVAL_BLOCKING | CANCELLATIONS.
(** lp_pedf_spinlocks_common.h:13-19 *)
Definition stype_code (b : stype) : N :=
  match b with SPIN_BLOCKING => 0 | ARRIVAL_BLOCKING => 1 | INDICATOR_ARRIVAL_BLOCKING => 2 | CANCELLATIONS => 3 end.
(** what a variable stands for (lp_pedf_spinlocks_common.h:24-30) *)
Record svar := SV { sv_task : nat; sv_res : nat; sv_type : stype }.
(** the members spin, arrival and indicator_arrival of SpinVarMapper (lp_pedf_spinlocks_common.h:54-76) *)
Definition spin (x q : nat) : svar := SV x q SPIN_BLOCKING.
(** lp_pedf_spinlocks_common.h:62-68 *)
Definition arrival (x q : nat) : svar := SV x q ARRIVAL_BLOCKING.
(** lp_pedf_spinlocks_common.h:70-76 *)
Definition indicator (q : nat) : svar := SV 0 q INDICATOR_ARRIVAL_BLOCKING.
(** the assertions of make_var_for (lp_pedf_spinlocks_common.h:43-44) *)
Definition svar_asserts (v : svar) : Prop := (N.of_nat (sv_task v) < 2 ^ 20 /\ N.of_nat (sv_res v) < 2 ^ 20)%N.
(** the key: bit fields of 20, 20 and 2 bits (lp_pedf_spinlocks_common.h:22-51) *)
Definition svar_key (v : svar) : N := (N.of_nat (sv_task v) + N.of_nat (sv_res v) * 2 ^ 20 + stype_code (sv_type v) * 2 ^ 40)%N.

(** get_request_length of a task for a resource (sharedres_types.h:170-176) *)
Definition get_request_length (t : taskinfo) (res : nat) : N :=
  match find (fun q => Nat.eqb (q_res q) res) (ti_requests t) with Some q => q_len q | None => 0%N end.
(** get_num_requests of a task (sharedres_types.h:162-168) *)
Definition num (t : taskinfo) (q : nat) : Z := Z.of_N (get_num_requests_for t q).

(** a loop that adds up (e.g. lp_pedf_msrp.cpp:76-86) *)
Definition sum_tasks (f : taskinfo -> Z) (l : list taskinfo) : Z := fold_left (fun s t => s + f t) l 0.

(** njobs of a local task (lp_pedf_msrp.cpp:78-83) *)
Definition njobs (u : Z -> Z) (m : mode) (interval : Z) (t : taskinfo) : Z :=
  match m with PDC_MODE => PDC_max_num_local_jobs u t interval | AC_MODE => AC_max_num_local_jobs t interval end.

(** add_no_arrival_blocking_dline_inside_interval, Constraint 8 (lp_pedf_spinlocks_common.cpp:166-183) *)
Definition add_no_arrival_blocking_dline_inside_interval (info : list taskinfo) (t : Z) (c : nat) (lp : lprog svar) : lprog svar :=
  fold_left (fun lp ti => fold_left (fun lp r => add_inequality (add_var (arrival (ti_id ti) (q_res r))) 0%Q lp) (ti_requests ti) lp)
    (tasks_leq_dline c t info) lp.
(** add_no_spin_delay_local_requests, Constraint 9 (lp_pedf_spinlocks_common.cpp:186-204) *)
Definition add_no_spin_delay_local_requests (info : list taskinfo) (c : nat) (lp : lprog svar) : lprog svar :=
  add_inequality (concat (map (fun ti => concat (map (fun r => add_var (spin (ti_id ti) (q_res r))) (ti_requests ti))) (tasks_in c info))) 0%Q lp.
(** add_joint_upper_bound_remote_requests, Constraint 10 (lp_pedf_spinlocks_common.cpp:207-229) *)
Definition add_joint_upper_bound_remote_requests (u : Z -> Z) (info : list taskinfo) (t : Z) (c : nat) (lp : lprog svar) : lprog svar :=
  fold_left (fun lp ti => fold_left (fun lp r =>
      add_inequality (add_var (arrival (ti_id ti) (q_res r)) ++ add_var (spin (ti_id ti) (q_res r)))
        (inject_Z (max_num_remote_jobs u ti t * Z.of_N (q_num r))) lp) (ti_requests ti) lp)
    (tasks_not_in c info) lp.
(** the loops of lp_pedf_spinlocks_common.cpp:235-243 and 252-260 *)
Definition sum_indicators (info : list taskinfo) : linexp svar := concat (map (fun q => add_var (indicator q)) (get_all_resources info)).
(** lp_pedf_spinlocks_common.cpp:235-243, 252-260 *)
Definition declare_indicators (info : list taskinfo) (lp : lprog svar) : lprog svar :=
  fold_left (fun lp q => declare_variable_binary (indicator q) lp) (get_all_resources info) lp.
(** add_arrival_blocking_single_resource, Constraint 11 (lp_pedf_spinlocks_common.cpp:232-246) *)
Definition add_arrival_blocking_single_resource (info : list taskinfo) (lp : lprog svar) : lprog svar :=
  add_inequality (sum_indicators info) 1%Q (declare_indicators info lp).
(** add_no_arrival_blocking, Constraint 11-bis (lp_pedf_spinlocks_common.cpp:249-263) *)
Definition add_no_arrival_blocking (info : list taskinfo) (lp : lprog svar) : lprog svar :=
  add_inequality (sum_indicators info) 0%Q (declare_indicators info lp).
(** max_preemption_level (lp_pedf_spinlocks_common.cpp:273-279) *)
Definition max_preemption_level (info : list taskinfo) (t : Z) (c : nat) : N :=
  fold_left (fun m ti => if deadline ti <=? t then if (m <? ti_prio ti)%N then ti_prio ti else m else m) (tasks_in c info) 0%N.
(** add_exclude_non_conflicting_local_resources, Constraint 12 (lp_pedf_spinlocks_common.cpp:266-298); the order of the set is immaterial *)
Definition add_exclude_non_conflicting_local_resources (info : list taskinfo) (t : Z) (c : nat) (lp : lprog svar) : lprog svar :=
  let ceilings := get_priority_ceilings info in
  let non_conflicting := filter (fun res => (max_preemption_level info t c <=? nth res ceilings UNLIMITED)%N) (get_local_resources info) in
  let e := concat (map (fun q => add_var (indicator q)) non_conflicting) in
  if has_terms e then add_inequality e 0%Q lp else lp.
(** add_no_requests_no_arrival_blocking, Constraint 13 (lp_pedf_spinlocks_common.cpp:302-320) *)
Definition add_no_requests_no_arrival_blocking (info : list taskinfo) (t : Z) (c : nat) (lp : lprog svar) : lprog svar :=
  fold_left (fun lp q =>
      add_inequality (add_var (indicator q)) (inject_Z (sum_tasks (fun ti => num ti q) (tasks_gt_dline c t info))) (declare_variable_binary (indicator q) lp))
    (get_all_resources info) lp.
(** add_arrival_blocking_max_one_local_request, Constraint 14 (lp_pedf_spinlocks_common.cpp:323-344) *)
Definition add_arrival_blocking_max_one_local_request (info : list taskinfo) (c : nat) (lp : lprog svar) : lprog svar :=
  fold_left (fun lp q =>
      add_inequality (concat (map (fun ti => add_var (arrival (ti_id ti) q)) (tasks_in c info)) ++ sub_var (indicator q)) 0%Q lp)
    (get_all_resources info) lp.
(** set_objective (lp_pedf_spinlocks_common.cpp:132-159) *)
Definition spin_objective (info : list taskinfo) : linexp svar :=
  concat (map (fun tx => concat (map (fun q =>
    let length := get_request_length tx q in
    if (0 <? length)%N then [(NQ length, spin (ti_id tx) q); (NQ length, arrival (ti_id tx) q)] else []) (get_all_resources info))) info).
(** the variables declared with a lower bound of 0 and no upper bound (lp_pedf_spinlocks_common.cpp:148-150) *)
Definition unbounded_vars (info : list taskinfo) : list svar :=
  concat (map (fun tx => concat (map (fun q => [spin (ti_id tx) q; arrival (ti_id tx) q]) (get_all_resources info))) info).
(** the constructor of PEDFBlockingAnalysisLP_Spinlocks (lp_pedf_spinlocks_common.cpp:59-86) *)
Definition spinlocks_lp (u : Z -> Z) (info : list taskinfo) (m : mode) (t : Z) (c : nat) : lprog svar :=
  let lp := add_no_arrival_blocking_dline_inside_interval info t c lp_empty in
  let lp := add_no_spin_delay_local_requests info c lp in
  let lp := add_joint_upper_bound_remote_requests u info t c lp in
  let lp := match m with AC_MODE => add_no_arrival_blocking info lp | PDC_MODE => add_arrival_blocking_single_resource info lp end in
  let lp := add_no_requests_no_arrival_blocking info t c lp in
  let lp := add_arrival_blocking_max_one_local_request info c lp in
  let lp := add_exclude_non_conflicting_local_resources info t c lp in
  add_objective (spin_objective info) lp.

(** * The constraints of the MSRP (lp_pedf_msrp.cpp) *)

(** foreach_cluster_except (iter-helper.h:126-130) *)
Definition clusters_except (info : list taskinfo) (c : nat) : list nat :=
  filter (fun k => negb (Nat.eqb k c)) (seq 0 (length (split_by_cluster info 0))).
(** add_at_max_one_request_per_processor_spin, Constraint 15 (lp_pedf_msrp.cpp:55-91) *)
Definition add_at_max_one_request_per_processor_spin (u : Z -> Z) (info : list taskinfo) (m : mode) (t : Z) (c : nat) (lp : lprog svar) : lprog svar :=
  fold_left (fun lp k => fold_left (fun lp q =>
      add_inequality (concat (map (fun tx => add_var (spin (ti_id tx) q)) (tasks_in k info)))
        (inject_Z (sum_tasks (fun ti => njobs u m t ti * num ti q) (tasks_in c info))) lp) (get_all_resources info) lp)
    (clusters_except info c) lp.
(** add_per_task_bound_spin_delay, Constraint 16 (lp_pedf_msrp.cpp:94-119) *)
Definition add_per_task_bound_spin_delay (u : Z -> Z) (info : list taskinfo) (t : Z) (c : nat) (lp : lprog svar) : lprog svar :=
  fold_left (fun lp tx => fold_left (fun lp q =>
      add_inequality (add_var (spin (ti_id tx) q))
        (inject_Z (sum_tasks (fun ti => max_num_remote_jobs u ti (deadline tx) * num ti q * max_num_remote_jobs u tx t) (tasks_in c info))) lp) (get_all_resources info) lp)
    (tasks_not_in c info) lp.
(** add_at_max_one_request_per_processor_arrival, Constraint 17 (lp_pedf_msrp.cpp:122-147) *)
Definition add_at_max_one_request_per_processor_arrival (info : list taskinfo) (c : nat) (lp : lprog svar) : lprog svar :=
  fold_left (fun lp k => fold_left (fun lp q =>
      add_inequality (concat (map (fun tx => add_var (arrival (ti_id tx) q)) (tasks_in k info)) ++ sub_var (indicator q)) 0%Q lp) (get_all_resources info) lp)
    (clusters_except info c) lp.
(** the constructor of MSRP_LP (lp_pedf_msrp.cpp:35-47) *)
Definition pedf_msrp_lp (u : Z -> Z) (info : list taskinfo) (m : mode) (t : Z) (c : nat) : lprog svar :=
  let lp := spinlocks_lp u info m t c in
  let lp := add_at_max_one_request_per_processor_spin u info m t c lp in
  let lp := add_per_task_bound_spin_delay u info t c lp in
  add_at_max_one_request_per_processor_arrival info c lp.

(** the columns: var_for_key for every variable (lp_pedf_spinlocks_common.h:54-84,
    varmapperbase.h:37-42).  Simplified: in the order in which the variables
    stand in the program *)
Definition svar_mapper (vs : list svar) : varmapper := fold_left (fun m v => snd (var_for_key (svar_key v) m)) vs [].
(** varmapperbase.h:27-42 *)
Definition svar_index (m : varmapper) (v : svar) : nat := match position (svar_key v) m with Some i => i | None => length m end.
(** what linprog_solve gets (lp_pedf_spinlocks_common.cpp:119): the program over
    columns and the columns without upper bound *)
Definition columns (info : list taskinfo) (lp : lprog svar) : lprog nat * list nat :=
  let m := svar_mapper (lp_vars lp ++ unbounded_vars info) in (rename (svar_index m) lp, map (svar_index m) (unbounded_vars info)).

(** solve: floor of the value of the objective (lp_pedf_spinlocks_common.cpp:87-127).
    [solver] stands for linprog_solve and the evaluation of the objective *)
Definition solve (solver : lprog nat -> list nat -> Q) (info : list taskinfo) (lp : lprog svar) : Z :=
  let '(p, free) := columns info lp in Qfloor (solver p free).

(** PEDFBlockingAnalysisMSRP (lp_pedf_msrp.cpp:153-178); compute_tighter_blocking_PDC is inherited (lp_pedf_analysis.h:38-43) *)
Definition msrp_analysis (solver : lprog nat -> list nat -> Q) (u : Z -> Z) (info : list taskinfo) (c : nat) : analysis :=
  Analysis (fun t => solve solver info (pedf_msrp_lp u info PDC_MODE t c)) (fun t => solve solver info (pedf_msrp_lp u info AC_MODE t c)) (fun _ blk_UB _ => blk_UB).

(** the loop of lp_pedf_msrp_is_schedulable (lp_pedf_msrp.cpp:186-196) *)
Fixpoint check_clusters (f : nat -> option bool) (ks : list nat) : option bool :=
  match ks with
  | [] => Some true
  | k :: r => match f k with None => None | Some false => Some false | Some true => check_clusters f r end
  end.
(** lp_pedf_msrp_is_schedulable (lp_pedf_msrp.cpp:184-199) *)
Definition lp_pedf_msrp_is_schedulable (fuel : nat) (u : Z -> Z) (solver : lprog nat -> list nat -> Q) (info : list taskinfo) : option bool :=
  check_clusters (fun k => is_schedulable fuel u info k (msrp_analysis solver u info k)) (seq 0 (length (split_by_cluster info 0))).
