(** Model of the soft real-time analyses of global EDF-like schedulers:
    schedcat/sched/edf/gel_pl.py, native/src/edf/gel_pl.cpp and
    schedcat/sched/edf/da.py.  Definitions only.
    Simplifications: utilization() and the quotients of da.py are exact
    rationals instead of binary64 numbers; math.ceil is exact; the attribute
    prio_pt of the tasks is a separate list [pps]; C++ unsigned integers do not
    wrap around. *)
From Coq Require Import ZArith QArith Qround List Bool.
From Verif Require Import Base ModelTasks.
Import ListNotations.
Open Scope Z_scope.

(** AnalysisDetails (gel_pl.py:22-29) *)
Record details := Details { d_bounds : list Z; d_S : list Q; d_G : list Q }.

(** AnalysisDetails.max_lateness (gel_pl.py:31-33); None: max of an empty list raises. *)
Definition max_lateness (tasks : taskset) (d : details) : option Z :=
  match map (fun p => fst p - t_deadline (snd p)) (combine (d_bounds d) tasks) with
  | [] => None
  | a :: r => Some (fold_left Z.max r a)
  end.

(** Result of an analysis: the code returns a value, returns None, or raises
    (gel_pl.py:74-75,83); OutOfFuel never occurs (see C38_gel_total). *)
Inductive gel_result := GelOk (d : details) | GelNone | GelRaise | GelOutOfFuel.

(** has_bounded_tardiness (gel_pl.py:209-211, da.py:78-80) *)
Definition has_bounded_tardiness (no_cpus : Z) (tasks : taskset) : bool :=
  Qle_bool (ts_utilization tasks None) (inject_Z no_cpus) && forallb (fun t => t_cost t <=? t_period t) tasks.

(** min(sched_pps) of a non-empty list (gel_pl.py:83) *)
Definition min_pp (a : Z) (r : list Z) : Z := fold_left Z.min r a.

(** analysis_pps (gel_pl.py:82-85); None: min of an empty list raises. *)
Definition analysis_pps (pps : list Z) : option (list Z) :=
  match pps with
  | [] => None
  | a :: r => Some (map (fun p => p - min_pp a r) pps)
  end.

(** max(Fraction(0), q) (gel_pl.py:93): Python's max keeps the first of equal arguments *)
Definition qmax0 (q : Q) : Q := if Qle_bool q 0 then 0%Q else q.

(** S_i[i] (gel_pl.py:93-94) *)
Definition S_value (t : task) (app : Z) : Q :=
  qmax0 (inject_Z (t_cost t) * (1 - zdivq app (t_period t))).

(** Y_ints[i] (gel_pl.py:95-96) *)
Definition Y_int (no_cpus : Z) (t : task) (app : Z) : Q :=
  ((0 - zdivq (t_cost t) no_cpus) * utilization t + inject_Z (t_cost t) - S_value t app)%Q.

(** heapq.nlargest(k, l) (gel_pl.py:188-190); a negative k yields []. *)
Definition nlargest (k : Z) (l : list Q) : list Q := firstn (Z.to_nat k) (sort_desc l).

(** [Y_ints[i] + utilizations[i] * s for i ...] (gel_pl.py:189-190); a line is
    the pair of its intercept and its slope *)
Definition values_at (s : Q) (lines : list (Q * Q)) : list Q := map (fun l => fst l + snd l * s)%Q lines.

(** M(s) (gel_pl.py:187-191) *)
Definition M_value (no_cpus util_ceil : Z) (S : Q) (lines : list (Q * Q)) (s : Q) : Q :=
  (qsum (nlargest (util_ceil - 1) (values_at s lines)) + S - inject_Z no_cpus * s)%Q.

(** a < b for fractions (gel_pl.py:167,201) *)
Definition qltb (a b : Q) : bool := negb (Qle_bool b a).

(** while M(max_s) > 0: double (gel_pl.py:195-197); the result is (min_s, max_s). *)
Fixpoint bin_double (fuel : nat) (M : Q -> Q) (min_s max_s : Q) : option (Q * Q) :=
  match fuel with
  | O => None
  | S f => if qltb 0 (M max_s) then bin_double f M max_s (max_s * 2)%Q else Some (min_s, max_s)
  end.

(** the bisection (gel_pl.py:199-204) *)
Fixpoint bisect (rounds : nat) (M : Q -> Q) (min_s max_s : Q) : Q * Q :=
  match rounds with
  | O => (min_s, max_s)
  | S r => let middle := ((max_s + min_s) / 2)%Q in
           if qltb (M middle) 0 then bisect r M min_s middle else bisect r M middle max_s
  end.

(** compute_binsearch_s (gel_pl.py:185-207) *)
Definition compute_binsearch_s (fuel : nat) (no_cpus util_ceil : Z) (S : Q) (lines : list (Q * Q)) (rounds : nat) : option Q :=
  let M := M_value no_cpus util_ceil S lines in
  match bin_double fuel M 0%Q 1%Q with
  | None => None
  | Some (min_s, max_s) => Some (snd (bisect rounds M min_s max_s))
  end.

(** A replacement (intersect, old, new) (gel_pl.py:122-128) *)
Record replacement := Repl { r_at : Q; r_old : nat; r_new : nat }.

(** the line of task i (gel_pl.py:121-126) *)
Definition line (lines : list (Q * Q)) (i : nat) : Q * Q := nth i lines (0%Q, 0%Q).
(** Y_ints[i] (gel_pl.py:122) *)
Definition icept (lines : list (Q * Q)) (i : nat) : Q := fst (line lines i).  (* Y_ints[i] (gel_pl.py:122) *)
Definition slope (lines : list (Q * Q)) (i : nat) : Q := snd (line lines i).  (* utilizations[i] (gel_pl.py:121) *)

(** body of the loop over pairs (gel_pl.py:121-128) *)
Definition pair_replacement (lines : list (Q * Q)) (i j : nat) : list replacement :=
  if Qeq_bool (slope lines i) (slope lines j) then []
  else let intersect := ((icept lines j - icept lines i) / (slope lines i - slope lines j))%Q in
       if Qle_bool 0 intersect
       then if qltb (slope lines i) (slope lines j) then [Repl intersect i j] else [Repl intersect j i]
       else [].

(** the unsorted replacements (gel_pl.py:115-128) *)
Definition all_replacements (lines : list (Q * Q)) : list replacement :=
  flat_map (fun i => flat_map (fun j => pair_replacement lines i j) (seq (i + 1) (length lines - (i + 1)))) (seq 0 (length lines)).

(** comparison of sort keys (r[0], utilizations[r[1]]) (gel_pl.py:139): key a <= key b *)
Definition repl_le (lines : list (Q * Q)) (a b : replacement) : bool :=
  qltb (r_at a) (r_at b) || (Qeq_bool (r_at a) (r_at b) && Qle_bool (slope lines (r_old a)) (slope lines (r_old b))).

(** replacements.sort (gel_pl.py:139): stable; insertion sort *)
Fixpoint insert_repl (lines : list (Q * Q)) (x : replacement) (l : list replacement) : list replacement :=
  match l with
  | [] => [x]
  | y :: r => if repl_le lines x y then x :: l else y :: insert_repl lines x r
  end.
(** replacements.sort (gel_pl.py:139) *)
Definition sort_repl (lines : list (Q * Q)) (l : list replacement) : list replacement :=  (* gel_pl.py:139 *)
  fold_right (insert_repl lines) [] l.

(** indices of heapq.nlargest(util_ceil - 1, enumerate(Y_ints), key) (gel_pl.py:154-155) *)
Fixpoint insert_idx (key : nat -> Q) (x : nat) (l : list nat) : list nat :=
  match l with
  | [] => [x]
  | y :: r => if Qle_bool (key y) (key x) then x :: l else y :: insert_idx key x r
  end.
(** the indices at the start (gel_pl.py:154-155) *)
Definition init_indices (k : Z) (lines : list (Q * Q)) : list nat :=  (* gel_pl.py:154-155 *)
  firstn (Z.to_nat k) (fold_right (insert_idx (icept lines)) [] (seq 0 (length lines))).

(** the loop that traces the piecewise linear function (gel_pl.py:163-183).
    [pres] is task_pres as a predicate on task indices.  When no replacement is
    left the code sets next_s = zero + 1 and the loop ends. *)
Fixpoint trace (lines : list (Q * Q)) (rest : list replacement) (zero next_s value slp : Q) (pres : nat -> bool) : Q :=
  if qltb next_s zero then
    let current_s := next_s in
    let zero := (current_s - value / slp)%Q in
    match rest with
    | [] => zero
    | r :: rest' =>
        let next_s := r_at r in
        let value := (value + (next_s - current_s) * slp)%Q in
        if pres (r_old r) && negb (pres (r_new r))
        then trace lines rest' zero next_s value (slp - slope lines (r_old r) + slope lines (r_new r))%Q
               (fun i => if Nat.eqb i (r_old r) then false else if Nat.eqb i (r_new r) then true else pres i)
        else trace lines rest' zero next_s value slp pres
    end
  else zero.

(** compute_exact_s (gel_pl.py:114-183) *)
Definition compute_exact_s (no_cpus util_ceil : Z) (S : Q) (lines : list (Q * Q)) : Q :=
  let init := init_indices (util_ceil - 1) lines in
  trace lines (sort_repl lines (all_replacements lines)) (0 + 1)%Q 0%Q
    (S + qsum (map (icept lines) init))%Q (- inject_Z no_cpus + qsum (map (slope lines) init))%Q
    (fun i => existsb (Nat.eqb i) init).

(** bounds[i] (gel_pl.py:106-108) *)
Definition gel_task_bound (no_cpus : Z) (s : Q) (t : task) (app : Z) : Z :=
  Qceiling (s - zdivq (t_cost t) no_cpus + inject_Z (t_cost t) + inject_Z app).

(** the lines of G (gel_pl.py:90-96) *)
Definition gel_lines (no_cpus : Z) (tasks : taskset) (apps : list Z) : list (Q * Q) :=
  map (fun p => (Y_int no_cpus (fst p) (snd p), utilization (fst p))) (combine tasks apps).
(** sum(S_i) (gel_pl.py:93-94,99) *)
Definition gel_S (tasks : taskset) (apps : list Z) : list Q := map (fun p => S_value (fst p) (snd p)) (combine tasks apps).

(** s (gel_pl.py:98-103) *)
Definition gel_s (fuel : nat) (no_cpus : Z) (tasks : taskset) (apps : list Z) (rounds : nat) : option Q :=
  let util_ceil := Qceiling (ts_utilization tasks None) in
  let S := qsum (gel_S tasks apps) in
  let lines := gel_lines no_cpus tasks apps in
  match rounds with
  | O => Some (compute_exact_s no_cpus util_ceil S lines)
  | _ => compute_binsearch_s fuel no_cpus util_ceil S lines rounds
  end.

(** compute_response_bounds (gel_pl.py:68-112).  Simplification: [rounds] is a
    non-negative integer. *)
Definition compute_response_bounds (fuel : nat) (no_cpus : Z) (tasks : taskset) (pps : list Z) (rounds : nat) : gel_result :=
  if negb (has_bounded_tardiness no_cpus tasks) then GelNone
  else match analysis_pps pps with
       | None => GelRaise
       | Some apps =>
           match gel_s fuel no_cpus tasks apps rounds with
           | None => GelOutOfFuel
           | Some s => GelOk (Details (map (fun p => gel_task_bound no_cpus s (fst p) (snd p)) (combine tasks apps))
                               (gel_S tasks apps) (values_at s (gel_lines no_cpus tasks apps)))
           end
       end.

(** compute_response_details without the C++ code (gel_pl.py:54-60,65-66) *)
Definition compute_response_details (fuel : nat) (no_cpus : Z) (tasks : taskset) (pps : list Z) (rounds : nat) : gel_result :=
  if (no_cpus =? 1) && forallb (fun p => snd p =? t_period (fst p)) (combine tasks pps)
  then GelOk (Details (map t_period tasks) (map (fun _ => 0%Q) tasks) (map (fun _ => 0%Q) tasks))
  else compute_response_bounds fuel no_cpus tasks pps rounds.

(** priority points of G-FL (gel_pl.py:40-42) and of G-EDF (gel_pl.py:50-51).
    Simplification: int((m - 1) / m * cost) is exact. *)
Definition gfl_pps (no_cpus : Z) (tasks : taskset) : list Z :=
  map (fun t => t_deadline t - (no_cpus - 1) * t_cost t / no_cpus) tasks.
(** the priority points of G-EDF (gel_pl.py:50-51) *)
Definition gedf_pps (tasks : taskset) : list Z := map t_deadline tasks.  (* gel_pl.py:50-51 *)

(** compute_gfl_response_details / compute_gedf_response_details (gel_pl.py:35-52) *)
Definition compute_gfl_response_details (fuel : nat) (no_cpus : Z) (tasks : taskset) (rounds : nat) : gel_result :=
  compute_response_details fuel no_cpus tasks (gfl_pps no_cpus tasks) rounds.
(** compute_gedf_response_details (gel_pl.py:45-52) *)
Definition compute_gedf_response_details (fuel : nat) (no_cpus : Z) (tasks : taskset) (rounds : nat) : gel_result :=  (* gel_pl.py:45-52 *)
  compute_response_details fuel no_cpus tasks (gedf_pps tasks) rounds.

(** bound_response_times (gel_pl.py:223-230): the new response times and the
    return value True, or False; None: an exception or out of fuel *)
Definition gel_bound_response_times (r : gel_result) : option (option (list Z)) :=
  match r with
  | GelOk d => Some (Some (d_bounds d))
  | GelNone => Some None
  | GelRaise | GelOutOfFuel => None
  end.

(** GELPl::M_lt_0 (gel_pl.cpp:239-267) *)
Definition n_M_lt_0 (no_cpus util_ceil : Z) (S : Q) (lines : list (Q * Q)) (s : Q) : bool :=
  qltb (- inject_Z no_cpus * s + S + (if 2 <=? util_ceil then qsum (nlargest (util_ceil - 1) (values_at s lines)) else 0)) 0.

(** while (!M_lt_0(max_s)) (gel_pl.cpp:218-221) *)
Fixpoint n_bin_double (fuel : nat) (lt0 : Q -> bool) (min_s max_s : Q) : option (Q * Q) :=
  match fuel with
  | O => None
  | S f => if lt0 max_s then Some (min_s, max_s) else n_bin_double f lt0 max_s (max_s * 2)%Q
  end.

(** the bisection (gel_pl.cpp:223-236) *)
Fixpoint n_bisect (rounds : nat) (lt0 : Q -> bool) (min_s max_s : Q) : Q :=
  match rounds with
  | O => max_s
  | S r => let middle := ((min_s + max_s) / 2)%Q in
           if lt0 middle then n_bisect r lt0 min_s middle else n_bisect r lt0 middle max_s
  end.

(** GELPl::compute_binsearch_s (gel_pl.cpp:213-237) *)
Definition n_compute_binsearch_s (fuel : nat) (no_cpus util_ceil : Z) (S : Q) (lines : list (Q * Q)) (rounds : nat) : option Q :=
  let lt0 := n_M_lt_0 no_cpus util_ceil S lines in
  match n_bin_double fuel lt0 0%Q 1%Q with
  | None => None
  | Some (min_s, max_s) => Some (n_bisect rounds lt0 min_s max_s)
  end.

(** s of the constructor (gel_pl.cpp:84-90).  compute_exact_s (gel_pl.cpp:111-211) is
    the same algorithm as compute_exact_s of gel_pl.py; Simplification:
    nth_element selects the largest intercepts like nlargest. *)
Definition n_gel_s (fuel : nat) (no_cpus : Z) (tasks : taskset) (apps : list Z) (rounds : nat) : option Q :=
  let util_ceil := Qceiling (ts_utilization tasks None) in
  let S := qsum (gel_S tasks apps) in
  let lines := gel_lines no_cpus tasks apps in
  match rounds with
  | O => Some (compute_exact_s no_cpus util_ceil S lines)
  | _ => n_compute_binsearch_s fuel no_cpus util_ceil S lines rounds
  end.

(** bounds (gel_pl.cpp:92-104): mpz get_ui drops the sign of the rounded x_i *)
Definition n_gel_task_bound (no_cpus : Z) (s : Q) (t : task) (app : Z) : Z :=
  app + t_cost t + Z.abs (Qceiling (s - zdivq (t_cost t) no_cpus)).

(** Task::init (tasks.cpp:24-27): a priority point of 0 means "use the deadline" *)
Definition n_prio_pt (t : task) (pp : Z) : Z := if pp =? 0 then t_deadline t else pp.

(** the constructor GELPl::GELPl (gel_pl.cpp:16-109): it does not check
    has_bounded_tardiness.  For an empty task set nothing is computed. *)
Definition n_gel (fuel : nat) (no_cpus : Z) (tasks : taskset) (pps : list Z) (rounds : nat) : option (list Z) :=
  match analysis_pps (map (fun p => n_prio_pt (fst p) (snd p)) (combine tasks pps)) with
  | None => Some []
  | Some apps =>
      match n_gel_s fuel no_cpus tasks apps rounds with
      | None => None
      | Some s => Some (map (fun p => n_gel_task_bound no_cpus s (fst p) (snd p)) (combine tasks apps))
      end
  end.

(** ** da.py *)

(** l[0:k] for an integer k: a negative k counts from the end (da.py:30,35,55,61) *)
Definition py_prefix {A} (k : Z) (l : list A) : list A :=
  if k <? 0 then firstn (length l - Z.to_nat (- k)) l else firstn (Z.to_nat k) l.

(** Result of tardiness_x: a number or None (da.py:15-36) *)
(** tardiness_x (da.py:8-36) *)
Definition tardiness_x (no_cpus : Z) (tasks : taskset) : option Z :=
  match tasks with
  | [] => Some 0
  | _ :: _ =>
      let U := ts_utilization tasks None in
      if no_cpus =? 1 then (if Qle_bool U 1 then Some 0 else None)
      else
        let by_util := sort_desc (map utilization tasks) in
        let by_cost := sort_desc (map (fun t => inject_Z (t_cost t)) tasks) in
        let Lambda := Qceiling U - 1 in
        let emin := last by_cost 0%Q in
        let reduced_capacity := (inject_Z no_cpus - qsum (py_prefix (Lambda - 1) by_util))%Q in
        if Qle_bool reduced_capacity 0 then None
        else let reduced_cost := qmax0 (qsum (py_prefix Lambda by_cost) - emin) in
             Some (Qceiling (reduced_cost / reduced_capacity))
  end.

(** np_tardiness_x (da.py:38-62) *)
Definition np_tardiness_x (no_cpus : Z) (tasks : taskset) : option Z :=
  match tasks with
  | [] => Some 0
  | _ :: _ =>
      let U := ts_utilization tasks None in
      let by_util := sort_desc (map utilization tasks) in
      let by_cost := sort_desc (map (fun t => inject_Z (t_cost t)) tasks) in
      let Lambda := Qceiling U - 1 in
      let emin := last by_cost 0%Q in
      let reduced_capacity := (inject_Z no_cpus - qsum (py_prefix (Lambda - 1) by_util))%Q in
      if Qle_bool reduced_capacity 0 then None
      else let block_idx := no_cpus - Lambda - 1 in
           let reduced_cost := (qsum (py_prefix Lambda by_cost) + qsum (py_prefix block_idx by_cost) - emin)%Q in
           Some (Qceiling (reduced_cost / reduced_capacity))
  end.

(** task_tardiness_bound (da.py:64-76) *)
Definition task_tardiness_bound (no_cpus : Z) (tasks : taskset) (preemptive : bool) : option Z :=
  if negb (has_bounded_tardiness no_cpus tasks) then None
  else if 1 <? no_cpus
       then (if preemptive then tardiness_x no_cpus tasks else np_tardiness_x no_cpus tasks)
       else Some 0.

(** Outcome of bound_response_times (da.py:82-92): the assertion fails, False,
    or True with the new response times *)
Inductive da_result := DaAssert | DaFalse | DaTrue (response_times : list Z).

(** bound_response_times (da.py:82-92) *)
Definition da_bound_response_times (no_cpus : Z) (tasks : taskset) (preemptive : bool) : da_result :=
  if negb (forallb implicit_deadline tasks) then DaAssert
  else match task_tardiness_bound no_cpus tasks preemptive with
       | None => DaFalse
       | Some x => DaTrue (map (fun t => t_deadline t + t_cost t + x) tasks)
       end.
