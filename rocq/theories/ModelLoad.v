(** Model of the C++ LOAD test for global EDF (native/src/edf/load.cpp,
    native/include/edf/load.h) and of the approximation of the load
    (native/src/tasks.cpp:137-151 and 164-241, native/include/tasks.h:155-187).
    GMP rationals are [Q], GMP integers are [Z].  [k.reserve] followed by [k[i] = ...]
    (tasks.cpp:176-185) writes behind the end of the vector; it is modelled as the
    list of the values written.  The line printed by tasks.cpp:187 is left out.
    Definitions only. *)
From Coq Require Import ZArith QArith Qround List Bool.
From Verif Require Import Base ModelTasks ModelNative ModelGEDF ModelGEDFNative ModelLA ModelFFDBFNative.
Import ListNotations.
Open Scope Z_scope.

(** Task::approx_demand on GMP integers (tasks.h:155-172); the conversion of k to
    [unsigned int] is the identity below 2^32 *)
Definition approx_demand (t : ntask) (time k : Z) : Z :=
  if time <? k * n_period t + n_deadline t then bound_demand t time
  else cdiv ((time - n_deadline t) * n_wcet t) (n_period t) + n_wcet t.

(** Task::approx_load (tasks.h:174-187) *)
Definition task_approx_load (t : ntask) (time k : Z) : Q :=
  if 0 <? time then (inject_Z (approx_demand t time k) / inject_Z time)%Q else 0%Q.

(** TaskSet::k_for_epsilon (tasks.cpp:137-151).  Simplification: the ceiling of the
    exact value instead of its [double] approximation. *)
Definition k_for_epsilon (ts : ntaskset) (epsilon : Q) (t : ntask) : Z :=
  Z.max 0 (Qceiling (n_util t * inject_Z (Z.of_nat (length ts)) / epsilon - frac (n_deadline t) (n_period t))).

(** the test points of one task (tasks.cpp:195-201) *)
Definition task_times (t : ntask) (k : Z) : list Z :=
  map (fun j => n_deadline t + Z.of_nat j * n_period t) (seq 0 (S (Z.to_nat k))).

(** std::sort of the test points (tasks.cpp:205), one insertion *)
Fixpoint insert_time (x : Z) (l : list Z) : list Z :=
  match l with
  | [] => [x]
  | y :: r => if x <=? y then x :: l else y :: insert_time x r
  end.
(** std::sort of the test points (tasks.cpp:205).  Simplification: insertion sort. *)
Definition sort_times (l : list Z) : list Z := fold_right insert_time [] l.

(** the approximate load of the task set at a test point (tasks.cpp:215-223) *)
Definition load_at_point (ts : ntaskset) (ks : list Z) (time : Z) : Q :=
  fold_left (fun l p => (l + task_approx_load (fst p) time (snd p))%Q) (combine ts ks) 0%Q.

(** the loop over the test points (tasks.cpp:208-238) *)
Fixpoint load_scan (ts : ntaskset) (ks : list Z) (density : Q) (times : list Z) (last : Z) (load : Q) : Q :=
  match times with
  | [] => load
  | t :: r =>
    if last <? t then
      let lp := load_at_point ts ks t in
      if negb (Qle_bool lp density) then density
      else load_scan ts ks density r t (if negb (Qle_bool lp load) then lp else load)
    else load_scan ts ks density r last load
  end.

(** TaskSet::approx_load (tasks.cpp:164-241) with the vector k as an argument *)
Definition approx_load_k (ts : ntaskset) (ks : list Z) (epsilon : Q) : Q :=
  let density := ns_density ts in
  let load := ns_util ts in
  if negb (Qle_bool density load)
  then load_scan ts ks density (sort_times (concat (map (fun p => task_times (fst p) (snd p)) (combine ts ks)))) 0 (load + epsilon)%Q
  else load.

(** TaskSet::approx_load (tasks.cpp:164-241) *)
Definition approx_load (ts : ntaskset) (epsilon : Q) : Q :=
  approx_load_k ts (map (k_for_epsilon ts epsilon) ts) epsilon.

(** the bound on the load (load.cpp:32-46) *)
Definition load_bound (m : Z) (max_density : Q) : Q :=
  let mu := (inject_Z m - (inject_Z m - 1) * max_density)%Q in
  let mu_ceil := inject_Z (cdiv (Qnum mu) (Zpos (Qden mu))) in
  let cond1 := (mu - (mu_ceil - 1) * max_density)%Q in
  let cond2 := ((mu_ceil - 1) - (mu_ceil - 2) * max_density)%Q in
  qmax cond1 cond2.

(** LoadGedf::is_schedulable (load.cpp:16-49); epsilon is milli_epsilon / 1000
    (load.h:11-13), 1/10 by default *)
Definition n_load (epsilon : Q) (m : Z) (ts : ntaskset) (check : bool) : bool :=
  if check && negb (has_only_feasible ts && is_not_overutilized ts m && has_no_suspending ts) then false
  else Qle_bool (approx_load ts epsilon) (load_bound m (ns_max_density ts)).

(** GlobalEDF::is_schedulable (gedf.cpp:15-62) with the remaining tests in place:
    FFDBFGedf(m) and LoadGedf(m) with their default arguments (gedf.cpp:50 and 58,
    ffdbf.h:17-23, load.h:11-13) *)
Definition n_gedf_all (fuel ffuel bfuel lfuel pfuel sfuel qfuel : nat) (bslow : nat -> bool) (lslow : nat -> Z -> nat -> bool) (m step : Z) (wb wr wf wl wla : bool)
  (ts : ntaskset) : option bool :=
  n_gedf_full fuel ffuel bfuel lfuel bslow lslow m step wb wr wf wl wla
    (fun ts => accepted (n_ffdbf pfuel sfuel qfuel 10 50 m ts false)) (fun ts => n_load (100 # 1000) m ts false) ts.
