(** Model of schedcat/sched/edf/gy_rta.py: response-time analysis for uniprocessor
    EDF (Guan and Yi).  Simplified: the supply of a dedicated processor, i.e. the
    default arguments sbf_uniprocessor and sbf_inverse_uniprocessor
    (gy_rta.py:18-28); integer parameters.  Definitions only. *)
From Coq Require Import ZArith QArith List Bool.
From Verif Require Import Base ModelTasks.
Import ListNotations.
Open Scope Z_scope.

(** find_L_prime (gy_rta.py:30-40); [None]: the loop has not ended after [fuel] rounds *)
Fixpoint find_L_prime (fuel : nat) (ts : taskset) (l_prime : Z) : option Z :=
  match fuel with
  | O => None
  | S fuel =>
    let rbf_val := ts_rbf ts l_prime in
    let sbf_val := l_prime in
    if rbf_val <=? sbf_val then Some l_prime else find_L_prime fuel ts (l_prime + (rbf_val - sbf_val))
  end.

(** max_deadline (tasks.py:247-248) of a non-empty set *)
Definition max_deadline (ts : taskset) : Z :=
  match ts with [] => 0 | t :: r => fold_left (fun m u => Z.max m (t_deadline u)) r (t_deadline t) end.

(** find_L and delta_values (gy_rta.py:42-53) *)
Definition delta_values (fuel : nat) (ts : taskset) : option (list Z) :=
  match find_L_prime fuel ts 0 with
  | None => None
  | Some l => ts_dbf_points fuel ts (l + max_deadline ts) 0
  end.

(** sort_by_deadline (tasks.py:148-149), a stable sort *)
Fixpoint insert_deadline (t : task) (l : taskset) : taskset :=
  match l with
  | [] => [t]
  | u :: r => if t_deadline t <=? t_deadline u then t :: l else u :: insert_deadline t r
  end.
(** sort_by_deadline (tasks.py:148-149) *)
Definition sort_by_deadline (ts : taskset) : taskset := fold_right insert_deadline [] ts.

(** min with float("inf") (gy_rta.py:66, 74, 78, 110, 124, 128) *)
Definition min_inf (a b : option Z) : option Z :=
  match a, b with Some x, Some y => Some (Z.min x y) | Some x, None => Some x | None, b => b end.

(** assignment to an element of the list s (gy_rta.py:74, 78, 124, 128) *)
Fixpoint set_slack (i : nat) (v : option Z) (s : list (option Z)) : list (option Z) :=
  match s, i with
  | [], _ => []
  | _ :: r, O => v :: r
  | x :: r, S i => x :: set_slack i v r
  end.

(** the index in the loops (gy_rta.py:69-73, 113-117): an IndexError is ignored *)
Definition next_index (ts : taskset) (i : nat) (delta : Z) : nat :=
  match nth_error ts (S i) with
  | Some t => if t_deadline t <=? delta then S i else i
  | None => i
  end.

(** the first loop of approx_wcrt (gy_rta.py:68-74) *)
Fixpoint approx_loop (ts : taskset) (deltas : list Z) (i : nat) (s : list (option Z)) : list (option Z) :=
  match deltas with
  | [] => s
  | delta :: r =>
    let i := next_index ts i delta in
    approx_loop ts r i (set_slack i (min_inf (nth i s None) (Some (delta - ts_dbf ts delta))) s)
  end.

(** mbf_i and mbf (gy_rta.py:80-94) *)
Definition mbf_i (t : task) (delta gamma : Z) : Z := Z.min (dbf t delta) (rbf t gamma).
(** mbf (gy_rta.py:88-94) *)
Definition mbf (ts : taskset) (delta gamma : Z) : Z := zsum (map (fun t => mbf_i t delta gamma) ts).

(** the fixed-point iteration (gy_rta.py:119-123) *)
Fixpoint gamma_loop (fuel : nat) (ts : taskset) (delta gamma_old gamma_new : Z) : option Z :=
  match fuel with
  | O => None
  | S fuel => if gamma_new =? gamma_old then Some gamma_new
              else gamma_loop fuel ts delta gamma_new (mbf ts delta gamma_new)
  end.

(** the comparison [x < s[i]] with float("inf") (gy_rta.py:118) *)
Definition lt_inf (x : Z) (s : option Z) : bool := match s with Some y => x <? y | None => true end.

(** the first loop of exact_wcrt (gy_rta.py:112-124) *)
Fixpoint exact_loop (fuel : nat) (ts : taskset) (deltas : list Z) (i : nat) (s : list (option Z)) : option (list (option Z)) :=
  match deltas with
  | [] => Some s
  | delta :: r =>
    let i := next_index ts i delta in
    if lt_inf (delta - ts_dbf ts delta) (nth i s None)
    then match gamma_loop fuel ts delta 0 (mbf ts delta 0) with
         | None => None
         | Some gamma => exact_loop fuel ts r i (set_slack i (min_inf (nth i s None) (Some (delta - gamma))) s)
         end
    else exact_loop fuel ts r i s
  end.

(** the last loop (gy_rta.py:75-78, 125-128): the response times, from the last task to
    the first; [None] is minus infinity.  Takes and returns the lists in task order. *)
Fixpoint back_pass (ts : taskset) (s : list (option Z)) : list (task * option Z) * option Z :=
  match ts, s with
  | t :: ts, x :: s =>
    let (rest, m) := back_pass ts s in
    let x := min_inf m x in
    ((t, option_map (fun v => t_deadline t - v) x) :: rest, x)
  | _, _ => ([], None)
  end.

(** Outcome of the two functions (gy_rta.py; no counterpart in the code as a type): False, an exception (max_deadline of an empty
    list), no result after [fuel] rounds, or the response times assigned to the
    tasks.  (On success the Python functions return None.) *)
Inductive gy_outcome := GYFalse | GYError | GYRunning | GYTimes (l : list (task * option Z)).

(** approx_wcrt (gy_rta.py:55-78) *)
Definition approx_wcrt (fuel : nat) (ts : taskset) : gy_outcome :=
  if negb (Qle_bool (ts_utilization ts None) 1) then GYFalse
  else let ts := sort_by_deadline ts in
       match ts with
       | [] => GYError
       | _ => match delta_values fuel ts with
              | None => GYRunning
              | Some deltas => GYTimes (fst (back_pass ts (approx_loop ts deltas 0 (repeat None (length ts)))))
              end
       end.

(** exact_wcrt (gy_rta.py:96-128) *)
Definition exact_wcrt (fuel : nat) (ts : taskset) : gy_outcome :=
  if negb (Qle_bool (ts_utilization ts None) 1) then GYFalse
  else let ts := sort_by_deadline ts in
       match ts with
       | [] => GYError
       | _ => match delta_values fuel ts with
              | None => GYRunning
              | Some deltas =>
                match exact_loop fuel ts deltas 0 (repeat None (length ts)) with
                | None => GYRunning
                | Some s => GYTimes (fst (back_pass ts s))
                end
              end
       end.
