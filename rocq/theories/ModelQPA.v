(** Model of native/src/edf/qpa.cpp: Quick Processor-demand Analysis and C=D
    splitting.  Definitions only. *)
From Coq Require Import ZArith QArith List Bool.
From Verif Require Import Base ModelNative.
Import ListNotations.
Open Scope Z_scope.

(** operator< on GMP rationals (e.g. qpa.cpp:153) *)
Definition qlt_bool (a b : Q) : bool := negb (Qle_bool b a).

(** body of the do loop of edf_busy_interval (qpa.cpp:40-47) *)
Definition busy_step (ts : ntaskset) (interval : Z) : Z :=
  fold_left (fun c t => c + divide_with_ceil interval (n_period t) * n_wcet t) ts 0.

(** do-while loop (qpa.cpp:39-48) *)
Fixpoint busy_loop (fuel : nat) (ts : ntaskset) (total_cost : Z) : option Z :=
  match fuel with
  | O => None
  | S f => let interval := total_cost in
           let total := busy_step ts interval in
           if negb (interval =? total) then busy_loop f ts total else Some interval
  end.

(** edf_busy_interval (qpa.cpp:29-51) *)
Definition edf_busy_interval (fuel : nat) (ts : ntaskset) : option Z :=
  busy_loop fuel ts (fold_left (fun c t => c + n_wcet t) ts 0).

(** zhang_burns_interval (qpa.cpp:53-79) *)
Definition zhang_burns_interval (ts : ntaskset) : Z :=
  let interval := fold_left (fun i t => Z.max i (n_deadline t - n_period t)) ts 0 in
  let delta := fold_left (fun s t => (s + inject_Z (n_period t - n_deadline t) * n_util t)%Q) ts 0%Q in
  Z.max interval (round_up (delta / (1 - ns_util ts))%Q).

(** max_deadline (qpa.cpp:100-108) *)
Definition max_deadline (t : ntask) (max_time : Z) : Z :=
  (max_time - n_deadline t) / n_period t * n_period t + n_deadline t.

(** ULONG_MAX (qpa.cpp:113) on the 64 bit platforms the library targets *)
Definition ULONG_MAX : Z := 18446744073709551615.

(** min_relative_deadline (qpa.cpp:111-119) *)
Definition min_relative_deadline (ts : ntaskset) : Z :=
  fold_left (fun d t => Z.min d (n_deadline t)) ts ULONG_MAX.

(** get_largest_testpoint (qpa.cpp:121-140) *)
Definition get_largest_testpoint (ts : ntaskset) (max_time : Z) : Z :=
  fold_left (fun point t =>
    if n_deadline t <? max_time then
      let m := max_deadline t max_time in
      let m := if m =? max_time then m - n_period t else m in
      if point <? m then m else point
    else point) ts 0.

(** QPATest::get_max_interval (qpa.cpp:149-157) *)
Definition get_max_interval (fuel : nat) (ts : ntaskset) (util : Q) : option Z :=
  match edf_busy_interval fuel ts with
  | None => None
  | Some b => Some (if qlt_bool util 1 then Z.min b (zhang_burns_interval ts) else b)
  end.

(** The search loop (qpa.cpp:182-194 and again 277-286): returns the last
    interval and its demand.  [demand] is the virtual get_demand. *)
Fixpoint qpa_loop (fuel : nat) (demand : Z -> Z) (ts : ntaskset) (min_interval next : Z) : option (Z * Z) :=
  match fuel with
  | O => None
  | S f =>
    let interval := next in
    let d := demand interval in
    let next := if d <? interval then d else get_largest_testpoint ts interval in
    if (d <=? interval) && (min_interval <? d)
    then qpa_loop f demand ts min_interval next
    else Some (interval, d)
  end.

(** QPATest::is_schedulable (qpa.cpp:159-197), check_preconditions = true *)
Definition qpa_is_schedulable (fuel : nat) (ts : ntaskset) : option bool :=
  if negb (has_no_suspending ts && has_only_feasible ts) then Some false
  else
    let util := ns_util ts in
    if qlt_bool 1 util then Some false
    else
      let min_interval := min_relative_deadline ts in
      match get_max_interval fuel ts util with
      | None => None
      | Some max_interval =>
        match qpa_loop fuel (ns_bound_demand ts) ts min_interval (get_largest_testpoint ts max_interval) with
        | None => None
        | Some (_, d) => Some (d <=? min_interval)
        end
      end.

(** find_feasible_cost_fixpoint (qpa.cpp:200-227); the asserts are not
    modelled here but proved. *)
Fixpoint cost_fixpoint (fuel : nat) (slack base_length period wcet : Z) : option Z :=
  match fuel with
  | O => None
  | S f =>
    let start := wcet in
    let njobs := (base_length - wcet) / period in
    let wcet := slack / njobs in
    if negb (start =? wcet) && (0 <? wcet)
    then cost_fixpoint f slack base_length period wcet
    else Some wcet
  end.

(** find_feasible_cost_fixpoint (qpa.cpp:200-227), the start of the iteration *)
Definition find_feasible_cost_fixpoint (fuel : nat) (interval demand_of_others period wcet : Z) : option Z :=
  cost_fixpoint fuel (interval - demand_of_others) (interval + period) period wcet.

(** The task set with the candidate: add_task, set_wcet and set_deadline
    (qpa.cpp:258-259, 296-297).  set_deadline keeps the priority point of the
    first candidate, which no demand-based function reads; the model sets it
    to the new deadline. *)
Definition with_split (ts : ntaskset) (c period : Z) : ntaskset := add_task ts c period c.

(** while loop of qpa_get_max_C_equal_D_cost (qpa.cpp:264-299); [inner] is the
    fuel of the loops inside. *)
Fixpoint split_loop (fuel inner : nat) (ts : ntaskset) (period max_wcet : Z) : option Z :=
  match fuel with
  | O => None
  | S f =>
    if negb (0 <? max_wcet) then Some max_wcet
    else
      let tss := with_split ts max_wcet period in
      match get_max_interval inner tss (ns_util tss) with
      | None => None
      | Some max_interval =>
        let min_interval := min_relative_deadline tss in
        match qpa_loop inner (ns_bound_demand tss) tss min_interval (get_largest_testpoint tss max_interval) with
        | None => None
        | Some (interval, d) =>
          if d <=? min_interval then Some max_wcet
          else
            match find_feasible_cost_fixpoint inner interval (ns_bound_demand ts interval) period max_wcet with
            | None => None
            | Some c => split_loop f inner ts period c
            end
        end
      end
  end.

(** qpa_get_max_C_equal_D_cost (qpa.cpp:232-302).  All loops get the same
    fuel. *)
Definition get_max_C_equal_D_cost (fuel : nat) (ts : ntaskset) (wcet period : Z) : option Z :=
  let util := (ns_util ts + frac wcet period)%Q in
  let max_wcet := if qlt_bool 1 util
                  then wcet - round_up ((util - 1) * inject_Z period)%Q else wcet in
  if qlt_bool 1 util && (max_wcet <=? 0) then Some 0
  else split_loop fuel fuel ts period max_wcet.
