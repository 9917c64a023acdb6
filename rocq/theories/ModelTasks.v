(** Model of schedcat/model/tasks.py and the sequence/number helpers it uses
    (schedcat/util/iter.py, schedcat/util/math.py).  Definitions only. *)
From Coq Require Import ZArith QArith List Bool.
From Verif Require Import Base.
Import ListNotations.
Open Scope Z_scope.

(** SporadicTask (tasks.py:14-26).  Only the numeric parameters; [id] and the
    optional attributes added by other modules appear where they are used.
    Simplification: parameters are integers. *)
Record task := Task { t_cost : Z; t_period : Z; t_deadline : Z }.

(** Constructor with the default implicit deadline (tasks.py:15-26);
    [None] stands for an omitted [deadline] argument. *)
Definition sporadic_task (cost period : Z) (deadline : option Z) : task :=
  match deadline with
  | None => Task cost period period
  | Some d => Task cost period d
  end.

(** SporadicTask.implicit_deadline (tasks.py:28-29) *)
Definition implicit_deadline (t : task) : bool := t_deadline t =? t_period t.

(** SporadicTask.constrained_deadline (tasks.py:31-32) *)
Definition constrained_deadline (t : task) : bool := t_deadline t <=? t_period t.

(** Exact quotient of two Python integers as a rational; the denominator is
    positive in every use (tasks.py:34-44).  Simplification: exact instead of
    binary64 division (the [_q] variants of the code are exact as well). *)
Definition zdivq (a b : Z) : Q := (inject_Z a / inject_Z b)%Q.

(** SporadicTask.utilization / utilization_q (tasks.py:34-38) *)
Definition utilization (t : task) : Q := zdivq (t_cost t) (t_period t).

(** SporadicTask.density / density_q (tasks.py:40-44) *)
Definition density (t : task) : Q := zdivq (t_cost t) (Z.min (t_period t) (t_deadline t)).

(** SporadicTask.tardiness (tasks.py:46-51); [r] is [response_time]. *)
Definition tardiness (r : Z) (t : task) : Z := Z.max 0 (r - t_deadline t).

(** SporadicTask.slack (tasks.py:53-58) *)
Definition slack (r : Z) (t : task) : Z := t_deadline t - r.

(** SporadicTask.maxjobs (tasks.py:60-66); [r] is [response_time]. *)
Definition maxjobs (r : Z) (t : task) (len : Z) : Z := cdiv (len + r) (t_period t).

(** SporadicTask.dbf (tasks.py:68-73) *)
Definition dbf (t : task) (x : Z) : Z :=
  if x <=? 0 then 0
  else Z.max 0 (((x - t_deadline t) / t_period t + 1) * t_cost t).

(** SporadicTask.rbf (tasks.py:75-79) *)
Definition rbf (t : task) (x : Z) : Z :=
  if x <? 0 then 0 else (x / t_period t + 1) * t_cost t.

(** [itertools.dropwhile(lambda pt: pt < 0, count(cur, step))]: the first
    element not dropped (tasks.py:85,94).  [fuel] bounds the search; [None]
    means it ran out. *)
Fixpoint count_drop (fuel : nat) (cur step : Z) : option Z :=
  match fuel with
  | O => None
  | S f => if cur <? 0 then count_drop f (cur + step) step else Some cur
  end.

(** [itertools.takewhile(lambda pt: pt <= max_t, count(cur, step))]
    (tasks.py:87,96). *)
Fixpoint count_take (fuel : nat) (cur step max_t : Z) : option (list Z) :=
  match fuel with
  | O => None
  | S f => if cur <=? max_t
           then option_map (cons cur) (count_take f (cur + step) step max_t)
           else Some []
  end.

(** Common shape of the two points_of_change methods (tasks.py:81-97): only
    the start value differs. Simplification: [max_t] is given (without it the
    iterator is infinite). *)
Definition points_from (fuel : nat) (start step : Z) (max_t offset : Z) : option (list Z) :=
  match (if 0 <? offset then count_drop fuel start step else Some start) with
  | None => None
  | Some s => count_take fuel s step max_t
  end.

(** SporadicTask.dbf_points_of_change (tasks.py:81-88) *)
Definition dbf_points_of_change (fuel : nat) (t : task) (max_t offset : Z) : option (list Z) :=
  points_from fuel (t_deadline t - offset) (t_period t) max_t offset.

(** SporadicTask.rbf_points_of_change (tasks.py:90-97) *)
Definition rbf_points_of_change (fuel : nat) (t : task) (max_t offset : Z) : option (list Z) :=
  points_from fuel (- offset) (t_period t) max_t offset.

(** SporadicTask.period_transform with want_integer=True (tasks.py:99-106) *)
Definition period_transform (t : task) (n : Z) : task :=
  Task (cdiv (t_cost t) n) (t_period t / n) (t_deadline t / n).

(** SporadicTask.is_feasible (tasks.py:108-109) *)
Definition is_feasible (t : task) : bool := t_cost t <=? Z.min (t_deadline t) (t_period t).

(** ** TaskSystem (tasks.py:117-) *)
Definition taskset := list task.

(** only_implicit_deadlines / only_constrained_deadlines (tasks.py:127-131) *)
Definition only_implicit_deadlines (ts : taskset) : bool := forallb implicit_deadline ts.
(** only_constrained_deadlines (tasks.py:130-131) *)
Definition only_constrained_deadlines (ts : taskset) : bool := forallb constrained_deadline ts.

(** Exact sum of a list of numbers (Python's [sum], tasks.py:187,198,201,210). *)
Definition qsum (l : list Q) : Q := fold_right Qplus 0%Q l.

(** [list.sort(reverse=True)] on numbers (tasks.py:189,197; math.py:25).
    Simplification: insertion sort; only the sorted order matters. *)
Fixpoint insert_desc (x : Q) (l : list Q) : list Q :=
  match l with
  | [] => [x]
  | y :: r => if Qle_bool y x then x :: l else y :: insert_desc x r
  end.
(** [list.sort(reverse=True)] on numbers (tasks.py:189,197; math.py:25) *)
Definition sort_desc (l : list Q) : list Q := fold_right insert_desc [] l.

(** TaskSystem.utilization / utilization_q (tasks.py:184-198).
    [heaviest] is a non-negative count. *)
Definition ts_utilization (ts : taskset) (heaviest : option nat) : Q :=
  match heaviest with
  | None => qsum (map utilization ts)
  | Some n => qsum (firstn n (sort_desc (map utilization ts)))
  end.

(** TaskSystem.density / density_q (tasks.py:200-204) *)
Definition ts_density (ts : taskset) : Q := qsum (map density ts).

(** TaskSystem.dbf / rbf (tasks.py:206-216) *)
Definition ts_dbf (ts : taskset) (x : Z) : Z := zsum (map (fun t => dbf t x) ts).
(** TaskSystem.rbf (tasks.py:212-216) *)
Definition ts_rbf (ts : taskset) (x : Z) : Z := zsum (map (fun t => rbf t x) ts).

(** [heapq.merge] of sorted iterables (tasks.py:220,224).  Simplification: the
    heap-based k-way merge is a right fold of the binary merge. *)
Fixpoint merge2 (a : list Z) : list Z -> list Z :=
  fix aux (b : list Z) : list Z :=
    match a, b with
    | [], _ => b
    | _, [] => a
    | x :: a', y :: b' => if x <=? y then x :: merge2 a' b else y :: aux b'
    end.
(** [heapq.merge] of several iterables (tasks.py:220,224) *)
Definition merge_all (ls : list (list Z)) : list Z := fold_right merge2 [] ls.

(** uniq (schedcat/util/iter.py:37-44): drops repetitions of the last value. *)
Fixpoint uniq_from (last : Z) (l : list Z) : list Z :=
  match l with
  | [] => []
  | x :: r => if x =? last then uniq_from last r else x :: uniq_from x r
  end.
(** uniq (schedcat/util/iter.py:37-44) *)
Definition uniq (l : list Z) : list Z :=
  match l with [] => [] | x :: r => x :: uniq_from x r end.

(** Collects per-task iterators (tasks.py:218-224); fails if one of them ran out of fuel. *)
Fixpoint sequence {A} (l : list (option A)) : option (list A) :=
  match l with
  | [] => Some []
  | None :: _ => None
  | Some x :: r => option_map (cons x) (sequence r)
  end.

(** TaskSystem.dbf_points_of_change / rbf_points_of_change (tasks.py:218-224) *)
Definition ts_dbf_points (fuel : nat) (ts : taskset) (max_t offset : Z) : option (list Z) :=
  option_map (fun ls => uniq (merge_all ls))
    (sequence (map (fun t => dbf_points_of_change fuel t max_t offset) ts)).
(** TaskSystem.rbf_points_of_change (tasks.py:222-224) *)
Definition ts_rbf_points (fuel : nat) (ts : taskset) (max_t offset : Z) : option (list Z) :=
  option_map (fun ls => uniq (merge_all ls))
    (sequence (map (fun t => rbf_points_of_change fuel t max_t offset) ts)).

(** lcm (schedcat/util/math.py:9-20): [(a // gcd(a,b)) * b] folded from the
    left; 0 without arguments.  Arguments are integers, so the type check of
    lines 14-18 never fires. *)
Definition lcm2 (a b : Z) : Z := (a / Z.gcd a b) * b.
(** lcm (schedcat/util/math.py:9-20) *)
Definition lcm (args : list Z) : Z :=
  match args with [] => 0 | a :: r => fold_left lcm2 r a end.

(** TaskSystem.hyperperiod (tasks.py:226-227) *)
Definition hyperperiod (ts : taskset) : Z := lcm (map t_period ts).

(** topsum (schedcat/util/math.py:22-26) *)
Definition topsum {A} (lst : list A) (f : A -> Q) (n : nat) : Q :=
  qsum (firstn n (sort_desc (map f lst))).
