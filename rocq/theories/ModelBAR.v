(** Model of Baruah's global EDF test: schedcat/sched/edf/bar.py.  Floating-point
    numbers are modelled as exact rationals.  Definitions only. *)
From Coq Require Import ZArith QArith Qround List Bool.
From Verif Require Import Base ModelTasks ModelGEDF.
Import ListNotations.
Open Scope Z_scope.

(** I1 (bar.py:25-31).  [same] is the identity test of line 28: tasks have no
    __eq__, so it holds of the task itself only. *)
Definition bar_I1 (same : bool) (tsk_i tsk_k : task) (a_k : Z) : Z :=
  let d_k := t_deadline tsk_k in
  let c_k := t_cost tsk_k in
  if same then Z.min (dbf tsk_i (a_k + d_k) - c_k) a_k
  else Z.min (dbf tsk_i (a_k + d_k)) (a_k + d_k - (c_k - 1)).

(** dbf_ (bar.py:33-35) *)
Definition bar_dbf_carry (tsk : task) (t : Z) : Z :=
  t / t_period tsk * t_cost tsk + Z.min (t_cost tsk) (t mod t_period tsk).

(** I2 (bar.py:37-43) *)
Definition bar_I2 (same : bool) (tsk_i tsk_k : task) (a_k : Z) : Z :=
  let d_k := t_deadline tsk_k in
  let c_k := t_cost tsk_k in
  if same then Z.min (bar_dbf_carry tsk_i (a_k + d_k) - c_k) a_k
  else Z.min (bar_dbf_carry tsk_i (a_k + d_k)) (a_k + d_k - (c_k - 1)).

(** task_schedulable_for_offset (bar.py:48-53); tsk_k is the task at position [k]. *)
Definition bar_offset (all_tsks : taskset) (k : nat) (tsk_k : task) (a_k m : Z) : bool :=
  let I1s := map (fun p => bar_I1 (Nat.eqb (fst p) k) (snd p) tsk_k a_k) (indexed all_tsks) in
  let Idiffs := map (fun p => bar_I2 (Nat.eqb (fst p) k) (snd p) tsk_k a_k - bar_I1 (Nat.eqb (fst p) k) (snd p) tsk_k a_k) (indexed all_tsks) in
  let Idiff := topsum Idiffs inject_Z (Z.to_nat (m - 1)) in
  Qle_bool (inject_Z (zsum I1s) + Idiff) (inject_Z (m * (a_k + t_deadline tsk_k - t_cost tsk_k))).

(** ak_bounds (bar.py:55-63) *)
Definition bar_bound (all_tsks : taskset) (m : Z) (tsk_k : task) : Q :=
  let U := ts_utilization all_tsks None in
  let c_sigma := topsum all_tsks (fun t => inject_Z (t_cost t)) (Z.to_nat (m - 1)) in
  let y := qsum (map (fun t => (inject_Z (t_period t - t_deadline t) * utilization t)%Q) all_tsks) in
  let mu := (inject_Z m - U)%Q in
  ((c_sigma - inject_Z (t_deadline tsk_k) * mu + y + inject_Z m * inject_Z (t_cost tsk_k)) / mu)%Q.

(** the loops of is_schedulable (bar.py:69-73).  An integer point is at most the
    bound iff it is at most its floor.  [fuel] is for the iterators. *)
Fixpoint bar_loop (fuel : nat) (m : Z) (tasks : taskset) (l : list (nat * task)) : option bool :=
  match l with
  | [] => Some true
  | (k, tsk_k) :: r =>
    match ts_dbf_points fuel tasks (Qfloor (bar_bound tasks m tsk_k)) (t_deadline tsk_k) with
    | None => None
    | Some pts => if forallb (fun a_k => bar_offset tasks k tsk_k a_k m) pts then bar_loop fuel m tasks r else Some false
    end
  end.

(** is_schedulable (bar.py:65-73) *)
Definition bar_test (fuel : nat) (m : Z) (tasks : taskset) : option bool :=
  if Qle_bool (inject_Z m) (ts_utilization tasks None) || negb (forallb constrained_deadline tasks) then Some false
  else bar_loop fuel m tasks (indexed tasks).
