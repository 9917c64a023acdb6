(** Model of native/src/blocking/msrp.cpp and native/src/edf/qpa_msrp.cpp: the
    classic analysis of the MSRP (FIFO spin locks with non-preemptive spinning
    for global resources, the stack resource policy for local ones), and of the
    preemption levels in schedcat/locking/bounds.py.  Unsigned integers are
    unbounded.  Definitions only. *)
From Coq Require Import NArith ZArith QArith List Bool.
From Verif Require Import ModelNative ModelQPA ModelLocking.
Import ListNotations.
Open Scope N_scope.

(** inner loop of get_global_resources (msrp.cpp:159-171): clusters_using_r is [seen] *)
Fixpoint two_clusters (seen : list nat) (l : list rbound) : bool :=
  match l with
  | [] => false
  | rb :: r =>
    let cluster := ti_cluster (rb_task rb) in
    let seen := if existsb (Nat.eqb cluster) seen then seen else cluster :: seen in
    if Nat.ltb 1 (length seen) then true else two_clusters seen r
  end.
(** get_global_resources (msrp.cpp:152-174) *)
Definition get_global_resources (res : list (list rbound)) : list nat :=
  filter (fun r => two_clusters [] (nth r res [])) (seq 0 (length res)).
(** global_resources.count (msrp.cpp:188, 240) *)
Definition is_global (global_resources : list nat) (r : nat) : bool := existsb (Nat.eqb r) global_resources.

(** max_csl of a partition (msrp.cpp:196-208) *)
Definition max_csl (c : list taskinfo) (res_id : nat) : N :=
  fold_left (fun m t => fold_left (fun m q => if Nat.eqb (q_res q) res_id then N.max m (q_len q) else m) (ti_requests t) m) c 0.
(** max_csl_sum (msrp.cpp:190-212) *)
Definition max_csl_sum (own : nat) (clusters : list (list taskinfo)) (num_cpus res_id : nat) : N :=
  fold_left (fun s cpu => if Nat.eqb cpu own then s else s + max_csl (nth cpu clusters []) res_id) (seq 0 num_cpus) 0.
(** msrp_remote_bound (msrp.cpp:176-219): blocking and np_blocking *)
Definition msrp_remote_bound (tsk : taskinfo) (clusters : list (list taskinfo)) (global_resources : list nat) (num_cpus : nat) : interf * interf :=
  fold_left (fun (st : interf * interf) q =>
    if negb (is_global global_resources (q_res q)) then st
    else
      let s := max_csl_sum (ti_cluster tsk) clusters num_cpus (q_res q) in
      (Inter (i_count (fst st) + q_num q) (i_len (fst st) + q_num q * s), Inter (i_count (snd st)) (N.max (i_len (snd st)) (s + q_len q))))
    (ti_requests tsk) (inter0, inter0).

(** msrp_local_bound (msrp.cpp:221-254) *)
Definition msrp_local_bound (tsk : taskinfo) (local : list taskinfo) (prio_ceilings : list N) (global_resources : list nat) (interval_length : N) : interf :=
  let m := fold_left (fun m t => fold_left (fun m q =>
      if (ti_prio t <=? ti_prio tsk) || is_global global_resources (q_res q)
         || (ti_prio tsk <? nth (q_res q) prio_ceilings UNLIMITED) || (ti_deadline t <=? interval_length)
      then m else N.max m (q_len q)) (ti_requests t) m) local 0 in
  if 0 <? m then Inter 1 m else inter0.

(** np_blocking[j] (msrp.cpp:44-55, 100-110) *)
Definition np_blocking (info : list taskinfo) (clusters : list (list taskinfo)) (global_resources : list nat) (num_cpus : nat) (tx : taskinfo) : interf :=
  if (ti_cluster tx <? num_cpus)%nat then snd (msrp_remote_bound tx clusters global_resources num_cpus) else inter0.

(** msrp_bounds (msrp.cpp:34-86) *)
Definition msrp_bounds (info : list taskinfo) (num_cpus : nat) : list bounds :=
  let clusters := split_by_cluster info num_cpus in
  let globals := get_global_resources (split_by_resource info) in
  let ceilings := get_priority_ceilings info in
  map (fun tsk =>
    let inside := (ti_cluster tsk <? num_cpus)%nat in
    let remote := if inside then fst (msrp_remote_bound tsk clusters globals num_cpus) else inter0 in
    let max_np := if inside then
        fold_left (fun m tx =>
          if negb (Nat.eqb (ti_cluster tx) (ti_cluster tsk)) || (ti_prio tx <? ti_prio tsk) || Nat.eqb (ti_id tsk) (ti_id tx)
          then m else N.max m (i_len (np_blocking info clusters globals num_cpus tx))) info 0
      else 0 in
    let local := if inside then msrp_local_bound tsk (nth (ti_cluster tsk) clusters []) ceilings globals 0 else inter0 in
    let local := Inter (i_count local) (N.max (i_len local) max_np) in
    BB (iadd remote local) inter0 inter0 remote local) info.

(** get_EDF_arrival_blocking (msrp.cpp:89-149) *)
Definition get_EDF_arrival_blocking (info : list taskinfo) (num_cpus : nat) (interval_length : N) (cpu_id : nat) : N :=
  let clusters := split_by_cluster info num_cpus in
  let globals := get_global_resources (split_by_resource info) in
  let ceilings := get_priority_ceilings info in
  fold_left (fun b tsk =>
    if (interval_length <? ti_deadline tsk) || negb (Nat.eqb (ti_cluster tsk) cpu_id) then b
    else
      let inside := (ti_cluster tsk <? num_cpus)%nat in
      let b := if inside then
          fold_left (fun b tx =>
            if negb (Nat.eqb (ti_cluster tx) (ti_cluster tsk)) || (ti_prio tx <? ti_prio tsk) || Nat.eqb (ti_id tsk) (ti_id tx)
               || (ti_deadline tx <=? interval_length)
            then b else N.max b (i_len (np_blocking info clusters globals num_cpus tx))) info b
        else b in
      let local := if inside then msrp_local_bound tsk (nth (ti_cluster tsk) clusters []) ceilings globals interval_length else inter0 in
      N.max b (i_len local)) info 0.

Open Scope Z_scope.

(** max_relative_deadline (qpa_msrp.cpp:12-20) *)
Definition max_relative_deadline (ts : ntaskset) : Z := fold_left (fun dl t => Z.max dl (n_deadline t)) ts 0.

(** QPA_MSRPTest::get_demand (qpa_msrp.cpp:28-36) *)
Definition msrp_demand (info : list taskinfo) (num_cpus cpu_id : nat) (max_dl : Z) (ts : ntaskset) (interval : Z) : Z :=
  let demand := ns_bound_demand ts interval in
  if interval <=? max_dl then demand + Z.of_N (get_EDF_arrival_blocking info num_cpus (Z.to_N interval) cpu_id) else demand.

(** QPA_MSRPTest::get_max_interval (qpa_msrp.cpp:38-46) *)
Definition msrp_max_interval (fuel : nat) (max_dl : Z) (ts : ntaskset) (util : Q) : option Z :=
  match get_max_interval fuel ts util with None => None | Some m => Some (Z.max m max_dl) end.

(** QPATest::is_schedulable with check_preconditions = false (qpa.cpp:159-197)
    and the methods above (qpa_msrp.cpp:74-77) *)
Definition msrp_is_schedulable (fuel : nat) (info : list taskinfo) (num_cpus cpu_id : nat) (ts : ntaskset) : option bool :=
  let max_dl := max_relative_deadline ts in
  let util := ns_util ts in
  if qlt_bool 1 util then Some false
  else
    let min_interval := min_relative_deadline ts in
    match msrp_max_interval fuel max_dl ts util with
    | None => None
    | Some max_interval =>
      match qpa_loop fuel (msrp_demand info num_cpus cpu_id max_dl ts) ts min_interval (get_largest_testpoint ts max_interval) with
      | None => None
      | Some (_, d) => Some (d <=? min_interval)
      end
    end.

(** the task set of a processor with inflated costs (qpa_msrp.cpp:62-72) *)
Definition msrp_taskset (info : list taskinfo) (blocking : list bounds) (k : nat) : ntaskset :=
  fold_left (fun ts t => if Nat.eqb (ti_cluster t) k
    then add_task ts (Z.of_N (ti_cost t + i_len (bb_remote (nth (ti_id t) blocking (BB inter0 inter0 inter0 inter0 inter0))))) (Z.of_N (ti_period t)) (Z.of_N (ti_deadline t))
    else ts) info [].

(** the loop over the clusters (qpa_msrp.cpp:60-82; iter-helper.h:121-124) *)
Fixpoint msrp_clusters (fuel : nat) (info : list taskinfo) (num_cpus : nat) (ks : list nat) : option bool :=
  match ks with
  | [] => Some true
  | k :: r =>
    match msrp_is_schedulable fuel info num_cpus k (msrp_taskset info (msrp_bounds info num_cpus) k) with
    | None => None
    | Some false => Some false
    | Some true => msrp_clusters fuel info num_cpus r
    end
  end.
(** pedf_msrp_classic_is_schedulable (qpa_msrp.cpp:54-87; bounds.py:609-612) *)
Definition pedf_msrp_classic_is_schedulable (fuel : nat) (info : list taskinfo) (num_cpus : nat) : option bool :=
  msrp_clusters fuel info num_cpus (seq 0 (length (split_by_cluster info 0))).

(** insertion into the sorted set of deadlines (bounds.py:13-16) *)
Fixpoint insert_dl (x : Z) (l : list Z) : list Z :=
  match l with
  | [] => [x]
  | y :: r => if x =? y then l else if x <? y then x :: l else y :: insert_dl x r
  end.
(** position in the sorted set: prio[int(dl)] (bounds.py:15-16); deadlines are integers *)
Fixpoint level_of (d : Z) (l : list Z) : N :=
  match l with [] => 0 | y :: r => if y =? d then 0%N else (1 + level_of d r)%N end.
(** assign_edf_preemption_levels (bounds.py:12-19): the levels, in the order of the tasks *)
Definition assign_edf_preemption_levels (deadlines : list Z) : list N :=
  let all := fold_left (fun l d => insert_dl d l) deadlines [] in
  map (fun d => level_of d all) deadlines.
