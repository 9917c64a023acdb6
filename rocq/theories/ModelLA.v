(** Model of the C++ global EDF tests of Baruah (native/src/edf/baruah.cpp) and
    of Liu and Anderson (native/src/edf/la.cpp).  GMP integers and
    [unsigned long] values are [Z], GMP rationals are [Q]; the elapsed processor
    time is an oracle.  Definitions only. *)
From Coq Require Import ZArith QArith List Bool.
From Verif Require Import Base ModelTasks ModelNative ModelGEDF ModelGEDFNative.
Import ListNotations.
Open Scope Z_scope.

(** class DBFPointsOfChange: the current point and the period (baruah.cpp:36-40, la.cpp:30-34) *)
Definition dpt := (Z * Z)%type.

(** DBFPointsOfChange::init (baruah.cpp:43-57, la.cpp:37-50).  Simplification: for
    a positive period the loop that adds the period to a negative number until it is
    not negative ends with the remainder. *)
Definition dpt_init (tsk_i tsk_k : ntask) : dpt :=
  let cur := n_deadline tsk_i - n_deadline tsk_k in
  let pi := n_period tsk_i in
  ((if cur <? 0 then cur mod pi else cur), pi).

(** queue.top()->get_cur() (baruah.cpp:116-118, la.cpp:109-111).  The priority
    queue is a list; of equal points any may be the top, here it is the first. *)
Fixpoint dq_top (q : list dpt) : option Z :=
  match q with
  | [] => None
  | p :: r => match dq_top r with None => Some (fst p) | Some x => Some (Z.min (fst p) x) end
  end.

(** pop, next, push of the top (baruah.cpp:117-120, la.cpp:110-113) *)
Fixpoint dq_bump (x : Z) (q : list dpt) : list dpt :=
  match q with
  | [] => []
  | p :: r => if fst p =? x then (fst p + snd p, snd p) :: r else p :: dq_bump x r
  end.

(** the loop that skips duplicates (baruah.cpp:114-121, la.cpp:107-114); None: no
    element in the queue, or out of fuel *)
Fixpoint dq_next (fuel : nat) (q : list dpt) (last : Z) : option (Z * list dpt) :=
  match fuel with
  | O => None
  | S f =>
    match dq_top q with
    | None => None
    | Some t => if t =? last then dq_next f (dq_bump t q) last else Some (t, dq_bump t q)
    end
  end.

(** class AllDBFPointsOfChange (baruah.cpp:82-88), AllTestPoints (la.cpp:75-81) *)
Record points := Points { p_queue : list dpt; p_last : Z; p_bound : Z }.

(** init and constructor (baruah.cpp:91-101, la.cpp:84-94) *)
Definition points_init (ts : ntaskset) (tsk_k : ntask) (bound : Z) : points :=
  Points (map (fun t => dpt_init t tsk_k) ts) (-1) bound.

(** get_next (baruah.cpp:108-125, la.cpp:101-118): the point if the result is true,
    and the new state.  A point is skipped at most once per task, hence the fuel. *)
Definition get_next (p : points) : option (option Z * points) :=
  if p_bound p <? p_last p then Some (None, p)
  else match dq_next (S (length (p_queue p))) (p_queue p) (p_last p) with
       | None => None
       | Some (t, q) => Some (if t <=? p_bound p then Some t else None, Points q t (p_bound p))
       end.

(** ** Liu and Anderson's test *)

(** work_no_carry (la.cpp:123-144); [same] is i == l *)
Definition la_no_carry (same : bool) (t_i t_l : ntask) (ilen susp : Z) : Z :=
  let tmp := ilen + n_deadline t_l in
  let dbf := bound_demand t_i tmp in
  if same then Z.min (dbf - n_wcet t_l) (Z.max (tmp - n_deadline t_l) (tmp + n_tardiness t_l - n_period t_l))
  else Z.min dbf (tmp + n_tardiness t_l - n_wcet t_l - susp + 1).

(** delta (la.cpp:147-163) *)
Definition la_delta (t : ntask) (x : Z) : Z :=
  let tmp := divide_with_ceil x (n_period t) in
  (tmp - 1) * n_wcet t + Z.min (n_wcet t) (x - tmp * n_period t + n_period t).

(** work_carry_in (la.cpp:165-189) *)
Definition la_carry_in (same : bool) (t_i t_l : ntask) (ilen susp : Z) : Z :=
  let tmp := ilen + n_deadline t_l in
  if same then Z.min (la_delta t_l (tmp + n_tardiness t_l) - n_wcet t_l)
                     (Z.max (tmp - n_deadline t_l) (tmp + n_tardiness t_l - n_period t_l))
  else Z.min (la_delta t_i (tmp + n_tardiness t_i)) (tmp + n_tardiness t_l - n_wcet t_l - susp + 1).

(** LAGedf::is_task_schedulable_for_interval (la.cpp:199-244); the sum of the
    first m-1 of the sorted differences is [topsum] *)
Definition la_interval (m : Z) (ts : ntaskset) (l : nat) (t_l : ntask) (susp ilen : Z) : bool :=
  let nc p := la_no_carry (Nat.eqb (fst p) l) (snd p) t_l ilen susp in
  let ci p := la_carry_in (Nat.eqb (fst p) l) (snd p) t_l ilen susp in
  let sum := zsum (map (fun p => if n_suspending (snd p) then Z.max (nc p) (ci p) else nc p) (indexed ts)) in
  let idiff := map (fun p => if n_suspending (snd p) then 0 else ci p - nc p) (indexed ts) in
  let bound := m * (ilen + n_deadline t_l + n_tardiness t_l - n_wcet t_l - susp) in
  Qle_bool (inject_Z sum + topsum idiff inject_Z (Z.to_nat (m - 1))) (inject_Z bound).

(** LAGedf::get_max_test_point (la.cpp:246-270) with test_point_sum (la.cpp:340-347) *)
Definition la_max_point (m : Z) (ts : ntaskset) (t_l : ntask) (susp : Z) : Z :=
  let usum := ns_util ts in
  let test_point_sum := fold_left (fun x t => x + inject_Z (n_wcet t) + n_util t * inject_Z (n_tardiness t))%Q ts 0%Q in
  round_up ((inject_Z m * inject_Z (n_wcet t_l + susp) - usum * inject_Z (n_tardiness t_l) + test_point_sum)
            / (inject_Z m - usum))%Q.

(** the loop over the test points (la.cpp:299-308); [slow n] tells whether the time
    is up when the counter is n.  None: out of fuel *)
Fixpoint la_points (fuel : nat) (slow : nat -> bool) (check : Z -> bool) (iter : nat) (p : points) : option bool :=
  match fuel with
  | O => None
  | S f =>
    match get_next p with
    | None => None
    | Some (None, _) => Some true
    | Some (Some ilen, p') =>
      if Nat.eqb (Nat.modulo (S iter) 10) 0 && slow (S iter) then Some false
      else if check ilen then la_points f slow check (S iter) p'
      else Some false
    end
  end.

(** LAGedf::is_task_schedulable_for_suspension_length (la.cpp:273-313) *)
Definition la_suspension (fuel : nat) (slow : nat -> bool) (m : Z) (ts : ntaskset) (l : nat) (t_l : ntask) (susp : Z) : option bool :=
  la_points fuel slow (la_interval m ts l t_l susp) 0 (points_init ts t_l (la_max_point m ts t_l susp)).

(** the values of the inner loop of LAGedf::is_schedulable (la.cpp:353-355) *)
Definition la_suspensions (t_l : ntask) : list Z := map Z.of_nat (seq 0 (S (Z.to_nat (n_susp t_l)))).

(** the nested loops of LAGedf::is_schedulable (la.cpp:350-363) *)
Fixpoint la_loop (fuel : nat) (slow : nat -> Z -> nat -> bool) (m : Z) (ts : ntaskset) (l : list (nat * ntask * Z)) : option bool :=
  match l with
  | [] => Some true
  | ((i, t_l), susp) :: r =>
    match la_suspension fuel (slow i susp) m ts i t_l susp with
    | None => None
    | Some false => Some false
    | Some true => la_loop fuel slow m ts r
    end
  end.

(** LAGedf::is_schedulable (la.cpp:315-366) *)
Definition n_la (fuel : nat) (slow : nat -> Z -> nat -> bool) (m : Z) (ts : ntaskset) (check : bool) : option bool :=
  if check && negb (has_only_feasible ts && is_not_overutilized ts m) then Some false
  else if check && Nat.eqb (length ts) 0 then Some true
  else if Qle_bool (inject_Z m - ns_util ts) 0 then Some false
  else la_loop fuel slow m ts (flat_map (fun p => map (fun x => (p, x)) (la_suspensions (snd p))) (indexed ts)).

(** ** Baruah's test *)

(** demand_bound_function (baruah.cpp:20-34) *)
Definition nb_dbf (t : ntask) (x : Z) : Z :=
  let db := x - n_deadline t in
  if 0 <=? db then (Z.quot db (n_period t) + 1) * n_wcet t else 0.

(** interval1 (baruah.cpp:128-141) *)
Definition nb_interval1 (same : bool) (t_i t_k : ntask) (ilen : Z) : Z :=
  let dbf := nb_dbf t_i (ilen + n_deadline t_k) in
  if same then Z.min (dbf - n_wcet t_k) ilen
  else Z.min dbf (ilen + n_deadline t_k - (n_wcet t_k - 1)).

(** demand_bound_function_prime (baruah.cpp:144-153) *)
Definition nb_dbf_prime (t : ntask) (x : Z) : Z :=
  Z.quot x (n_period t) * n_wcet t + Z.min (n_wcet t) (Z.rem x (n_period t)).

(** interval2 (baruah.cpp:155-168) *)
Definition nb_interval2 (same : bool) (t_i t_k : ntask) (ilen : Z) : Z :=
  let dbf := nb_dbf_prime t_i (ilen + n_deadline t_k) in
  if same then Z.min (dbf - n_wcet t_k) ilen
  else Z.min dbf (ilen + n_deadline t_k - (n_wcet t_k - 1)).

(** BaruahGedf::is_task_schedulable (baruah.cpp:178-206) *)
Definition nb_task (m : Z) (ts : ntaskset) (k : nat) (t_k : ntask) (ilen : Z) : bool :=
  let i1 p := nb_interval1 (Nat.eqb (fst p) k) (snd p) t_k ilen in
  let i2 p := nb_interval2 (Nat.eqb (fst p) k) (snd p) t_k ilen in
  let sum := zsum (map i1 (indexed ts)) in
  let idiff := map (fun p => i2 p - i1 p) (indexed ts) in
  Qle_bool (inject_Z sum + topsum idiff inject_Z (Z.to_nat (m - 1)))
           (inject_Z (m * (ilen + n_deadline t_k - n_wcet t_k))).

(** BaruahGedf::get_max_test_points (baruah.cpp:208-242); the quotient is truncated.
    The difference of period and deadline is not negative after the check of the
    preconditions. *)
Definition nb_max_point (m : Z) (ts : ntaskset) (t_k : ntask) : Z :=
  let m_minus_u := (inject_Z m - ns_util ts)%Q in
  let csigma := topsum ts (fun t => inject_Z (n_wcet t)) (Z.to_nat (m - 1)) in
  let tdu_sum := fold_left (fun x t => x + inject_Z (n_period t - n_deadline t) * n_util t)%Q ts 0%Q in
  let x := ((csigma - inject_Z (n_deadline t_k) * m_minus_u + tdu_sum + inject_Z (n_wcet t_k * m)) / m_minus_u)%Q in
  Z.quot (Qnum x) (Zpos (Qden x)).

(** the for loop (baruah.cpp:307-313): the new iterators, schedulable and
    point_in_range *)
Fixpoint nb_round (m : Z) (ts : ntaskset) (l : list (nat * ntask * points)) (in_range : bool)
  : option (list (nat * ntask * points) * bool * bool) :=
  match l with
  | [] => Some ([], true, in_range)
  | ((k, t_k), p) :: r =>
    match get_next p with
    | None => None
    | Some (None, p') => option_map (fun x => (((k, t_k), p') :: fst (fst x), snd (fst x), snd x)) (nb_round m ts r in_range)
    | Some (Some ilen, p') =>
      if nb_task m ts k t_k ilen
      then option_map (fun x => (((k, t_k), p') :: fst (fst x), snd (fst x), snd x)) (nb_round m ts r true)
      else Some (((k, t_k), p') :: r, false, true)
    end
  end.

(** the while loop (baruah.cpp:297-314) *)
Fixpoint nb_loop (fuel : nat) (slow : nat -> bool) (m : Z) (ts : ntaskset) (iter : nat) (l : list (nat * ntask * points)) : option bool :=
  match fuel with
  | O => None
  | S f =>
    if Nat.eqb (Nat.modulo (S iter) 10) 0 && slow (S iter) then Some false
    else match nb_round m ts l false with
         | None => None
         | Some (l', schedulable, in_range) =>
           if in_range && schedulable then nb_loop f slow m ts (S iter) l' else Some schedulable
         end
  end.

(** BaruahGedf::is_schedulable (baruah.cpp:244-323) *)
Definition n_baruah (fuel : nat) (slow : nat -> bool) (m : Z) (ts : ntaskset) (check : bool) : option bool :=
  if check && negb (preconditions m ts) then Some false
  else if check && Nat.eqb (length ts) 0 then Some true
  else if Qle_bool (ns_util ts * (-1) + inject_Z m) 0 then Some false
  else nb_loop fuel slow m ts 0 (map (fun p => (p, points_init ts (snd p) (nb_max_point m ts (snd p)))) (indexed ts)).

(** ** The combined test *)

(** the verdict of a test that ended (no counterpart in the code: the fuel of n_la
    and n_baruah is an artefact of the model) *)
Definition accepted (o : option bool) : bool := match o with Some b => b | None => false end.

(** GlobalEDF::is_schedulable (gedf.cpp:15-62) with the Baruah and LA tests in place
    (gedf.cpp:27-28, 49 and 54) *)
Definition n_gedf_full (fuel ffuel bfuel lfuel : nat) (bslow : nat -> bool) (lslow : nat -> Z -> nat -> bool) (m step : Z) (wb wr wf wl wla : bool)
  (ffdbf load : ntaskset -> bool) (ts : ntaskset) : option bool :=
  n_gedf fuel ffuel m step wb wr wf wl wla (fun ts => accepted (n_baruah bfuel bslow m ts false)) ffdbf
    (fun ts => accepted (n_la lfuel lslow m ts false)) load ts true.
