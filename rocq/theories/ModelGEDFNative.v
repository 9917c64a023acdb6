(** Model of the C++ global EDF tests: native/src/edf/{gfb,baker,bcl,
    bcl_iterative,rta,gedf}.cpp and the conversion of a Python task set
    (schedcat/sched/__init__.py).  GMP rationals are [Q], GMP integers are [Z]
    with truncated division.  [unsigned long] values are [Z]; wrap-around is
    modelled only where a difference of two parameters may be negative
    (baker.cpp:20).  Definitions only. *)
From Coq Require Import ZArith QArith List Bool.
From Verif Require Import Base ModelTasks ModelNative ModelGEDF.
Import ListNotations.
Open Scope Z_scope.

(** get_native_taskset without prio_pt and suspensions (sched/__init__.py:19-24) *)
Definition get_native_taskset (tasks : taskset) : ntaskset :=
  fold_left (fun ts t => add_task ts (t_cost t) (t_period t) (t_deadline t)) tasks [].

(** unsigned long arithmetic (baker.cpp:20) *)
Definition ulong (x : Z) : Z := x mod 2 ^ 64.

(** preconditions shared by the tests (gfb.cpp:10-13, bcl.cpp:70-73, bcl_iterative.cpp:73-76) *)
Definition preconditions (m : Z) (ts : ntaskset) : bool :=
  has_only_feasible ts && is_not_overutilized ts m && has_only_constrained ts && has_no_suspending ts.

(** GFBGedf::is_schedulable (gfb.cpp:6-25) *)
Definition n_gfb (m : Z) (ts : ntaskset) (check : bool) : bool :=
  if check && negb (preconditions m ts) then false
  else
    let bound := (inject_Z m - (inject_Z m - 1) * ns_max_density ts)%Q in
    Qle_bool (ns_density ts) bound.

(** BakerGedf::beta (baker.cpp:10-32) *)
Definition n_bak_beta (t_i t_k : ntask) (lambda_k : Q) : Q :=
  let u_i := n_util t_i in
  let b := ((inject_Z (ulong (n_period t_i - n_deadline t_i)) / inject_Z (n_deadline t_k) + 1) * u_i)%Q in
  if negb (Qle_bool u_i lambda_k) then
    (b + (inject_Z (n_wcet t_i) - lambda_k * inject_Z (n_period t_i)) / inject_Z (n_deadline t_k))%Q
  else b.

(** the loop of BakerGedf::is_task_schedulable (baker.cpp:43-49), which stops
    as soon as the sum exceeds the bound; std::min(a, b) is [(b < a) ? b : a] *)
Fixpoint n_bak_loop (ts : ntaskset) (t_k : ntask) (lambda bound sum : Q) : bool :=
  match ts with
  | [] => Qle_bool sum bound
  | t_i :: r =>
    if Qle_bool sum bound then
      let b := n_bak_beta t_i t_k lambda in
      n_bak_loop r t_k lambda bound (sum + (if negb (Qle_bool b 1) then 1 else b))%Q
    else Qle_bool sum bound
  end.

(** BakerGedf::is_task_schedulable (baker.cpp:34-50) *)
Definition n_bak_task (m : Z) (ts : ntaskset) (t_k : ntask) : bool :=
  let lambda := n_density t_k in
  let bound := (inject_Z m * (1 - lambda) + lambda)%Q in
  n_bak_loop ts t_k lambda bound 0.

(** BakerGedf::is_schedulable (baker.cpp:52-68) *)
Definition n_bak (m : Z) (ts : ntaskset) (check : bool) : bool :=
  if check && negb (has_only_feasible ts && is_not_overutilized ts m && has_no_suspending ts) then false
  else forallb (n_bak_task m ts) ts.

(** BCLGedf::max_jobs_contained (bcl.cpp:10-16) *)
Definition max_jobs_contained (t_i t_k : ntask) : Z :=
  if n_deadline t_k <? n_deadline t_i then 0
  else 1 + Z.quot (n_deadline t_k - n_deadline t_i) (n_period t_i).

(** BCLGedf::beta (bcl.cpp:18-37) *)
Definition n_bcl_beta (t_i t_k : ntask) : Q :=
  let n := max_jobs_contained t_i t_k in
  let c_i := n_wcet t_i in
  let tmp := if n_period t_i * n <? n_deadline t_k then n_deadline t_k - n * n_period t_i else 0 in
  ((inject_Z (n * c_i) + inject_Z (Z.min c_i tmp)) / inject_Z (n_deadline t_k))%Q.

(** loop body (bcl.cpp:49-57) *)
Definition n_bcl_step (t_k : ntask) (lambda_term : Q) (st : Q * bool) (t_i : ntask) : Q * bool :=
  let '(beta_sum, small) := st in
  let b := n_bcl_beta t_i t_k in
  ((beta_sum + (if negb (Qle_bool b lambda_term) then lambda_term else b))%Q,
   small || (negb (Qle_bool b 0) && Qle_bool b lambda_term)).

(** BCLGedf::is_task_schedulable (bcl.cpp:39-63) *)
Definition n_bcl_task (m : Z) (ts : ntaskset) (k : nat) (t_k : ntask) : bool :=
  let lambda_term := (n_density t_k * (-1) + 1)%Q in
  let '(beta_sum, small) := fold_left (n_bcl_step t_k lambda_term) (others k ts) (0%Q, false) in
  let cap := (lambda_term * inject_Z m)%Q in
  negb (Qle_bool cap beta_sum) || (small && Qeq_bool beta_sum cap).

(** BCLGedf::is_schedulable (bcl.cpp:65-82) *)
Definition n_bcl (m : Z) (ts : ntaskset) (check : bool) : bool :=
  if check && negb (preconditions m ts) then false
  else forallb (fun p => n_bcl_task m ts (fst p) (snd p)) (indexed ts).

(** interfering_workload (bcl_iterative.cpp:11-26) *)
Definition n_bcli_workload (t_i t_k : ntask) (slack : Z) : Z :=
  let njobs := Z.quot (n_deadline t_k) (n_period t_i) in
  let tmp := slack + njobs * n_period t_i in
  if tmp <=? n_deadline t_k then njobs * n_wcet t_i + Z.min (n_wcet t_i) (n_deadline t_k - tmp)
  else njobs * n_wcet t_i.

(** BCLIterativeGedf::slack_update (bcl_iterative.cpp:28-66) with the loop body
    (bcl_iterative.cpp:96-102) *)
Definition n_bcli_step (m : Z) (ts : ntaskset) (st : list Z * bool * bool) (p : nat * ntask) : list Z * bool * bool :=
  let '(slack, schedulable, updated) := st in
  let '(k, t_k) := p in
  let inf_bound := n_deadline t_k - n_wcet t_k + 1 in
  let other_work := fold_left (fun w q => w + Z.min (n_bcli_workload (fst q) t_k (snd q)) inf_bound)
                              (others k (combine ts slack)) 0 in
  let tmp := n_wcet t_k + Z.quot other_work m in
  if n_deadline t_k <? tmp then (slack, false, updated)
  else if nth k slack 0 <? n_deadline t_k - tmp then (set_nth k (n_deadline t_k - tmp) slack, schedulable, true)
  else (slack, schedulable, updated).

(** the while loop (bcl_iterative.cpp:91-103) *)
Fixpoint n_bcli_loop (fuel : nat) (m : Z) (ts : ntaskset) (max_rounds round : Z) (slack : list Z) (updated schedulable : bool) : option bool :=
  if continue max_rounds round updated schedulable then
    match fuel with
    | O => None
    | S f => let '(slack', schedulable', updated') := fold_left (n_bcli_step m ts) (indexed ts) (slack, true, false) in
             n_bcli_loop f m ts max_rounds (round + 1) slack' updated' schedulable'
    end
  else Some schedulable.

(** BCLIterativeGedf::is_schedulable (bcl_iterative.cpp:68-106) *)
Definition n_bcli (fuel : nat) (m : Z) (ts : ntaskset) (max_rounds : Z) (check : bool) : option bool :=
  if check && negb (preconditions m ts) then Some false
  else if check && Nat.eqb (length ts) 0 then Some true
  else n_bcli_loop fuel m ts max_rounds 0 (map (fun _ => 0) ts) true false.

(** rta_interfering_workload (rta.cpp:15-33) *)
Definition n_rta_workload (t_i : ntask) (response_time slack_i : Z) : Z :=
  let interval := response_time + (n_deadline t_i - n_wcet t_i) - slack_i in
  let inf := n_wcet t_i * Z.quot interval (n_period t_i) in
  let rest := Z.rem interval (n_period t_i) in
  if n_wcet t_i <? rest then inf + n_wcet t_i else inf + rest.

(** edf_interfering_workload (rta.cpp:36-51) *)
Definition n_edf_workload (t_i t_k : ntask) (slack_i : Z) : Z :=
  let njobs := Z.quot (n_deadline t_k) (n_period t_i) in
  let tmp := Z.rem (n_deadline t_k) (n_period t_i) in
  if slack_i <? tmp then njobs * n_wcet t_i + Z.min (n_wcet t_i) (tmp - slack_i) else njobs * n_wcet t_i.

(** RTAGedf::response_estimate (rta.cpp:53-85), without the overflow result *)
Definition n_response_estimate (m : Z) (k : nat) (t_k : ntask) (ts : ntaskset) (slack : list Z) (response : Z) : Z :=
  let inf_bound := response - n_wcet t_k + 1 in
  let other_work := fold_left (fun w q => w + Z.min (Z.min (n_edf_workload (fst q) t_k (snd q)) (n_rta_workload (fst q) response (snd q))) inf_bound)
                              (others k (combine ts slack)) 0 in
  Z.quot other_work m + n_wcet t_k.

(** the loop of RTAGedf::rta_fixpoint (rta.cpp:98-105); its two branches assign
    the same values as rta.py:45-50 *)
Fixpoint n_rta_loop (fuel : nat) (est : Z -> Z) (deadline min_delta last response : Z) : option Z :=
  if negb (last =? response) && (response <=? deadline) then
    match fuel with
    | O => None
    | S f => let last' := if (last <? response) && (response - last <? min_delta) then Z.min (last + min_delta) deadline else response in
             n_rta_loop f est deadline min_delta last' (est last')
    end
  else Some response.

(** RTAGedf::rta_fixpoint (rta.cpp:87-108) with the loop body (rta.cpp:137-153) *)
Definition n_rta_step (ffuel : nat) (m min_delta : Z) (ts : ntaskset) (st : option (list Z * bool * bool)) (p : nat * ntask)
  : option (list Z * bool * bool) :=
  match st with
  | None => None
  | Some (slack, schedulable, updated) =>
    let '(k, t_k) := p in
    let est := n_response_estimate m k t_k ts slack in
    match n_rta_loop ffuel est (n_deadline t_k) min_delta (n_wcet t_k) (est (n_wcet t_k)) with
    | None => None
    | Some response =>
      if response <=? n_deadline t_k then
        if negb (n_deadline t_k - response =? nth k slack 0)
        then Some (set_nth k (n_deadline t_k - response) slack, schedulable, true)
        else Some (slack, schedulable, updated)
      else Some (slack, false, updated)
    end
  end.

(** the while loop (rta.cpp:132-154) *)
Fixpoint n_rta_rounds (fuel ffuel : nat) (m min_delta : Z) (ts : ntaskset) (max_rounds round : Z) (slack : list Z) (updated schedulable : bool) : option bool :=
  if continue max_rounds round updated schedulable then
    match fuel with
    | O => None
    | S f => match fold_left (n_rta_step ffuel m min_delta ts) (indexed ts) (Some (slack, true, false)) with
             | None => None
             | Some (slack', schedulable', updated') =>
               n_rta_rounds f ffuel m min_delta ts max_rounds (round + 1) slack' updated' schedulable'
             end
    end
  else Some schedulable.

(** RTAGedf::is_schedulable (rta.cpp:110-157); the preconditions test the
    feasibility twice and not the absence of self-suspensions *)
Definition n_rta (fuel ffuel : nat) (m min_delta : Z) (ts : ntaskset) (max_rounds : Z) (check : bool) : option bool :=
  if check && negb (has_only_feasible ts && is_not_overutilized ts m && has_only_constrained ts && has_only_feasible ts) then Some false
  else if check && Nat.eqb (length ts) 0 then Some true
  else n_rta_rounds fuel ffuel m min_delta ts max_rounds 0 (map (fun _ => 0) ts) true false.

(** GlobalEDF::is_schedulable (gedf.cpp:15-62).  The Baruah, FF-DBF, LA and load
    tests are parameters here; they are modelled in ModelLA.v, ModelFFDBFNative.v and
    ModelLoad.v.  RTAGedf is constructed with the
    default of 25 rounds (rta.h:24-28). *)
Definition n_gedf (fuel ffuel : nat) (m rta_step : Z) (want_baruah want_rta want_ffdbf want_load want_la : bool)
  (baruah ffdbf la load : ntaskset -> bool) (ts : ntaskset) (check : bool) : option bool :=
  if check && negb (has_only_feasible ts && is_not_overutilized ts m) then Some false
  else if check && Nat.eqb (length ts) 0 then Some true
  else if negb (has_no_suspending ts) then Some (want_la && la ts)
  else if (m =? 1) && Qle_bool (ns_density ts) 1 then Some true
  else if n_bak m ts false then Some true
  else
    match (if has_only_constrained ts then
             if n_gfb m ts false then Some true
             else match (if want_rta then n_rta fuel ffuel m rta_step ts 25 false else Some false) with
                  | None => None
                  | Some true => Some true
                  | Some false => Some ((want_baruah && baruah ts) || (want_ffdbf && ffdbf ts))
                  end
           else Some false) with
    | None => None
    | Some true => Some true
    | Some false => Some ((want_la && la ts) || (want_load && load ts))
    end.
