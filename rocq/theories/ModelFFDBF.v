(** Model of the global EDF test of Baruah, Bonifaci, Marchetti-Spaccamela and
    Stiller: schedcat/sched/edf/ffdbf.py.  Fractions are exact rationals; so are
    the quotients that the code computes in floating point when the operands
    happen to be integers (lines 24, 48).  Definitions only. *)
From Coq Require Import ZArith QArith Qround List Bool.
From Verif Require Import Base ModelTasks ModelGEDF.
Import ListNotations.
Open Scope Z_scope.

(** ffdbf (ffdbf.py:22-32) *)
Definition ffdbf (ti : task) (time speed : Q) : Q :=
  let q_i := Qfloor (time / inject_Z (t_period ti)) in
  let r_i := (time - inject_Z q_i * inject_Z (t_period ti))%Q in
  let demand := inject_Z (q_i * t_cost ti) in
  if Qle_bool (inject_Z (t_deadline ti)) r_i then (demand + inject_Z (t_cost ti))%Q
  else if Qle_bool (inject_Z (t_deadline ti) - inject_Z (t_cost ti) / speed) r_i
  then (demand + (inject_Z (t_cost ti) - (inject_Z (t_deadline ti) - r_i) * speed))%Q
  else demand.

(** ts_ffdbf (ffdbf.py:34-38) *)
Definition ts_ffdbf (ts : taskset) (time speed : Q) : Q := qsum (map (fun t => ffdbf t time speed) ts).

(** witness_condition (ffdbf.py:40-44) *)
Definition witness_condition (cpus : Z) (ts : taskset) (time speed : Q) : bool :=
  Qle_bool (ts_ffdbf ts time speed) ((inject_Z cpus - inject_Z (cpus - 1) * speed) * time).

(** the loop of test_points (ffdbf.py:60-63), cut off at [bound] because its only
    caller stops at the first point beyond time_bound; None: out of fuel *)
Fixpoint points_beyond (fuel : nat) (time period : Z) (offset bound : Q) : option (list Q) :=
  match fuel with
  | O => None
  | S f =>
    if Qle_bool (inject_Z time - offset) bound
    then option_map (fun l => ((inject_Z time - offset)%Q :: (if Qle_bool (inject_Z time) bound then [inject_Z time] else [])) ++ l)
                    (points_beyond f (time + period) period offset bound)
    else Some []
  end.

(** test_points (ffdbf.py:46-63) up to [bound] *)
Definition test_points (fuel : nat) (ti : task) (speed min_time bound : Q) : option (list Q) :=
  let skip := Qfloor (min_time / inject_Z (t_period ti)) in
  let time := skip * t_period ti + t_deadline ti in
  let offset := min_q (inject_Z (t_cost ti) / speed) (inject_Z (t_deadline ti)) in
  let keep x := negb (Qle_bool x min_time) && Qle_bool x bound in
  option_map (fun l => filter keep [(inject_Z time - offset)%Q; inject_Z time] ++ l)
             (points_beyond fuel (time + t_period ti) (t_period ti) offset bound).

(** imerge (schedcat/util/iter.py:17-35) of sorted sequences.  Simplification: the
    heap is a right fold of the binary merge. *)
Fixpoint qmerge2 (a : list Q) : list Q -> list Q :=
  fix aux (b : list Q) : list Q :=
    match a, b with
    | [], _ => b
    | _, [] => a
    | x :: a', y :: b' => if Qle_bool x y then x :: qmerge2 a' b else y :: aux b'
    end.

(** uniq (schedcat/util/iter.py:37-44) *)
Fixpoint quniq_from (last : Q) (l : list Q) : list Q :=
  match l with
  | [] => []
  | x :: r => if Qeq_bool x last then quniq_from last r else x :: quniq_from x r
  end.
(** uniq, the first value (schedcat/util/iter.py:38-40) *)
Definition quniq (l : list Q) : list Q := match l with [] => [] | x :: r => x :: quniq_from x r end.

(** testing_set (ffdbf.py:65-67) up to [bound] *)
Definition testing_set (fuel : nat) (ts : taskset) (speed min_time bound : Q) : option (list Q) :=
  option_map (fun ls => quniq (fold_right qmerge2 [] ls)) (sequence (map (fun t => test_points fuel t speed min_time bound) ts)).

(** the values of brute_force_sigma_values (ffdbf.py:69-75), by position *)
Definition sigma_at (maxd step : Q) (n : nat) : Q :=
  match n with
  | O => maxd
  | S _ => (inject_Z (Qfloor (maxd / step)) * step + inject_Z (Z.of_nat n) * step)%Q
  end.

(** the search for the next sigma (ffdbf.py:115-124): the position of a value that
    passes at time [t], Some None for "out of bounds, give up"; None: out of fuel *)
Fixpoint next_sigma (fuel : nat) (cpus : Z) (ts : taskset) (maxd step bound t : Q) (n : nat) : option (option nat) :=
  match fuel with
  | O => None
  | S f =>
    let s := sigma_at maxd step (S n) in
    if Qle_bool maxd s && Qle_bool s bound
    then if witness_condition cpus ts t s then Some (Some (S n)) else next_sigma f cpus ts maxd step bound t (S n)
    else Some None
  end.

(** the scan for a point where sigma is not a witness (ffdbf.py:107-113) *)
Definition first_failure (cpus : Z) (ts : taskset) (speed : Q) (points : list Q) : option Q :=
  find (fun t => negb (witness_condition cpus ts t speed)) points.

(** the main loop (ffdbf.py:105-130).  A sigma of 0 (all costs are zero) is a
    ZeroDivisionError in lines 28 and 51: None, like fuel that runs out. *)
Fixpoint ffdbf_loop (fuel pfuel : nat) (cpus : Z) (ts : taskset) (maxd step sigma_bound time_bound : Q) (n : nat) (t_cur : Q) : option bool :=
  match fuel with
  | O => None
  | S f =>
    let s := sigma_at maxd step n in
    if negb (Qle_bool maxd s && Qle_bool s sigma_bound) then Some false
    else if Qeq_bool s 0 then None
    else match testing_set pfuel ts s t_cur time_bound with
    | None => None
    | Some points =>
      match first_failure cpus ts s points with
      | None => Some true
      | Some t =>
        match next_sigma f cpus ts maxd step sigma_bound t n with
        | None => None
        | Some None => Some false
        | Some (Some n') => ffdbf_loop f pfuel cpus ts maxd step sigma_bound time_bound n' t
        end
      end
    end
  end.

(** max_density_q (model/tasks.py:235-236) of a non-empty set *)
Definition max_density (t0 : task) (r : taskset) : Q := max_list (density t0) (map density r).

(** is_schedulable (ffdbf.py:77-132).  The default arguments are epsilon = 1/10 and
    sigma_granularity = 50. *)
Definition ffdbf_test (fuel pfuel : nat) (epsilon : Q) (granularity : positive) (cpus : Z) (ts : taskset) : option bool :=
  match ts with
  | [] => Some true
  | t0 :: r =>
    if cpus <? 2 then Some false
    else
      let sigma_bound := min_q 1 ((inject_Z cpus - ts_utilization ts None) / inject_Z (cpus - 1) - epsilon) in
      let time_bound := (inject_Z (zsum (map t_cost ts)) / epsilon)%Q in
      ffdbf_loop fuel pfuel cpus ts (max_density t0 r) (1 # granularity) sigma_bound time_bound 0 0
  end.
