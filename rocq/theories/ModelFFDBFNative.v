(** Model of the C++ version of the FF-DBF test for global EDF:
    native/src/edf/ffdbf.cpp and native/include/edf/ffdbf.h.  GMP integers and
    [unsigned long] values are [Z], GMP rationals are [Q].  Definitions only. *)
From Coq Require Import ZArith QArith Qround List Bool.
From Verif Require Import Base ModelTasks ModelNative ModelGEDF ModelGEDFNative ModelLA.
Import ListNotations.
Open Scope Z_scope.

(** the conversion of a rational to an integer, and truncate_fraction
    (ffdbf.cpp:23, 99 and 262; time-types.h:11-15): towards zero *)
Definition q_trunc (x : Q) : Z := Z.quot (Qnum x) (Zpos (Qden x)).

(** get_q_r (ffdbf.cpp:16-27) *)
Definition get_q_r (t_i : ntask) (time : Q) : Z * Q :=
  let q_i := q_trunc (time / inject_Z (n_period t_i)) in
  (q_i, (time - inject_Z (q_i * n_period t_i))%Q).

(** compute_q_r (ffdbf.cpp:29-34); the two arrays as one list of pairs *)
Definition compute_q_r (ts : ntaskset) (time : Q) : list (Z * Q) := map (fun t => get_q_r t time) ts.

(** ffdbf (ffdbf.cpp:36-64): the demand after the call *)
Definition n_ffdbf_task (t_i : ntask) (speed : Q) (q_i : Z) (r_i : Q) (demand : Q) : Q :=
  let demand := (demand + inject_Z (q_i * n_wcet t_i))%Q in
  let tmp := ((0 - inject_Z (n_wcet t_i)) / speed + inject_Z (n_deadline t_i))%Q in
  if Qle_bool tmp r_i then
    let demand := (demand + inject_Z (n_wcet t_i))%Q in
    if Qle_bool r_i (inject_Z (n_deadline t_i))
    then (demand - (inject_Z (n_deadline t_i) - r_i) * speed)%Q
    else demand
  else demand.

(** ffdbf_ts (ffdbf.cpp:66-74) *)
Definition n_ffdbf_ts (ts : ntaskset) (qr : list (Z * Q)) (speed : Q) : Q :=
  fold_left (fun demand p => n_ffdbf_task (fst p) speed (fst (snd p)) (snd (snd p)) demand) (combine ts qr) 0%Q.

(** FFDBFGedf::witness_condition (ffdbf.cpp:193-208) *)
Definition n_witness (m : Z) (ts : ntaskset) (qr : list (Z * Q)) (time speed : Q) : bool :=
  let bound := ((inject_Z (- (m - 1)) * speed + inject_Z m) * time)%Q in
  Qle_bool (n_ffdbf_ts ts qr speed) bound.

(** class TestPoints (ffdbf.cpp:77-83) *)
Record tpoint := TPoint { tp_time : Q; tp_offset : Q; tp_period : Z; tp_first : bool }.

(** TestPoints::get_cur (ffdbf.cpp:110-116) *)
Definition tp_cur (p : tpoint) : Q := if tp_first p then tp_offset p else tp_time p.

(** TestPoints::next (ffdbf.cpp:118-128) *)
Definition tp_next (p : tpoint) : tpoint :=
  if tp_first p then TPoint (tp_time p) (tp_offset p) (tp_period p) false
  else TPoint (tp_time p + inject_Z (tp_period p))%Q (tp_offset p + inject_Z (tp_period p))%Q (tp_period p) true.

(** the loop of TestPoints::init (ffdbf.cpp:106-107); None: out of fuel *)
Fixpoint tp_skip (fuel : nat) (min_time : Q) (p : tpoint) : option tpoint :=
  match fuel with
  | O => None
  | S f => if Qle_bool (tp_cur p) min_time then tp_skip f min_time (tp_next p) else Some p
  end.

(** TestPoints::init (ffdbf.cpp:86-108).  The loop passes over two points at most,
    hence the fuel. *)
Definition tp_init (t_i : ntask) (speed min_time : Q) : option tpoint :=
  let off := (inject_Z (n_wcet t_i) / speed)%Q in
  let off := if negb (Qle_bool off (inject_Z (n_deadline t_i))) then inject_Z (n_deadline t_i) else off in
  let time := (inject_Z (q_trunc (min_time / inject_Z (n_period t_i))) * inject_Z (n_period t_i) + inject_Z (n_deadline t_i))%Q in
  tp_skip 3 min_time (TPoint time (off * (-1) + time)%Q (n_period t_i) true).

(** queue.top()->get_cur() (ffdbf.cpp:131-137 and 183-185).  The priority queue is a
    list; of equal points any may be the top, here it is the first. *)
Fixpoint tq_top (q : list tpoint) : option Q :=
  match q with
  | [] => None
  | p :: r => match tq_top r with
              | None => Some (tp_cur p)
              | Some x => Some (if Qle_bool (tp_cur p) x then tp_cur p else x)
              end
  end.

(** pop, next, push of the top (ffdbf.cpp:184-187) *)
Fixpoint tq_bump (x : Q) (q : list tpoint) : list tpoint :=
  match q with
  | [] => []
  | p :: r => if Qeq_bool (tp_cur p) x then tp_next p :: r else p :: tq_bump x r
  end.

(** AllTestPoints::get_next (ffdbf.cpp:178-190): the point and the new queue; the
    point is also the new [last].  None: the queue is empty, or out of fuel. *)
Fixpoint tq_next (fuel : nat) (q : list tpoint) (last : Q) : option (Q * list tpoint) :=
  match fuel with
  | O => None
  | S f =>
    match tq_top q with
    | None => None
    | Some t => if Qeq_bool t last then tq_next f (tq_bump t q) last else Some (t, tq_bump t q)
    end
  end.

(** AllTestPoints::init (ffdbf.cpp:158-171): the queue; [last] is -1 *)
Definition tq_init (ts : ntaskset) (speed min_time : Q) : option (list tpoint) :=
  sequence (map (fun t => tp_init t speed min_time) ts).

(** the loop over the points (ffdbf.cpp:271-281): t_cur and schedulable at its end *)
Fixpoint nf_scan (fuel qfuel : nat) (m : Z) (ts : ntaskset) (sigma time_bound : Q) (q : list tpoint) (last : Q) : option (Q * bool) :=
  match fuel with
  | O => None
  | S f =>
    match tq_next qfuel q last with
    | None => None
    | Some (t, q') =>
      if Qle_bool t time_bound
      then if n_witness m ts (compute_q_r ts t) t sigma then nf_scan f qfuel m ts sigma time_bound q' t
           else Some (t, false)
      else Some (t, true)
    end
  end.

(** the search for the next sigma (ffdbf.cpp:286-291): sigma_cur and sigma_nxt at its end *)
Fixpoint nf_sigma (fuel : nat) (m : Z) (ts : ntaskset) (step sigma_bound t sigma_nxt : Q) : option (Q * Q) :=
  match fuel with
  | O => None
  | S f =>
    let sigma_cur := sigma_nxt in
    let sigma_nxt := (sigma_nxt + step)%Q in
    if Qle_bool sigma_cur sigma_bound && negb (n_witness m ts (compute_q_r ts t) t sigma_cur)
    then nf_sigma f m ts step sigma_bound t sigma_nxt
    else Some (sigma_cur, sigma_nxt)
  end.

(** the main loop (ffdbf.cpp:266-293).  A sigma of 0 (all costs are zero) is a
    division by zero in lines 48 and 91: None, like fuel that runs out. *)
Fixpoint nf_loop (fuel sfuel qfuel : nat) (m : Z) (ts : ntaskset) (step sigma_bound time_bound : Q) (sigma_cur sigma_nxt t_cur : Q) : option bool :=
  match fuel with
  | O => None
  | S f =>
    if negb (Qle_bool sigma_cur sigma_bound && Qle_bool t_cur time_bound) then Some false
    else if Qeq_bool sigma_cur 0 then None
    else match tq_init ts sigma_cur t_cur with
    | None => None
    | Some q =>
      match nf_scan sfuel qfuel m ts sigma_cur time_bound q (-1) with
      | None => None
      | Some (_, true) => Some true
      | Some (t, false) =>
        match nf_sigma f m ts step sigma_bound t sigma_nxt with
        | None => None
        | Some (s, s') => nf_loop f sfuel qfuel m ts step sigma_bound time_bound s s' t
        end
      end
    end
  end.

(** FFDBFGedf::is_schedulable (ffdbf.cpp:210-299) with the constructor
    (ffdbf.h:17-23; the defaults are 10 and 50) *)
Definition n_ffdbf (fuel sfuel qfuel : nat) (epsilon_denom sigma_granularity : positive) (m : Z) (ts : ntaskset) (check : bool) : option bool :=
  if m <? 2 then Some false
  else if check && negb (preconditions m ts) then Some false
  else
    let tmp := (1 # epsilon_denom)%Q in
    let sigma_bound := min_q ((ns_util ts - inject_Z m) / inject_Z (- (m - 1)) - tmp)%Q 1 in
    let time_bound := (fold_left (fun x t => x + inject_Z (n_wcet t)) ts 0 / tmp)%Q in
    let step := (1 # sigma_granularity)%Q in
    let sigma_cur := ns_max_density ts in
    let sigma_nxt := ((inject_Z (q_trunc (sigma_cur / step)) + 1) * step)%Q in
    nf_loop fuel sfuel qfuel m ts step sigma_bound time_bound sigma_cur sigma_nxt 0.
