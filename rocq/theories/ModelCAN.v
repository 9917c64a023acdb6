(** Model of the CAN message set (schedcat/model/canbus.py), of the schedulability
    part of schedcat/sched/canbus/broster.py and of the robust priority assignment
    (schedcat/sched/canbus/prio_assign.py).

    Times are integers, i.e. multiples of a common unit of all (rational)
    parameters; Python computes with floating-point numbers.  The lazily filled
    attributes transfer_delay, blocking_delay and retran_delay_per_fault are
    recomputed; the list wctt_vec is modelled.  Definitions only. *)
From Coq Require Import ZArith List Bool.
From Verif Require Import Base.
Import ListNotations.
Open Scope Z_scope.

(** CANMessage (model/canbus.py:7-23): the payload length in bytes is stored as
    cost; an integer id is the priority, smaller is higher.  [cm_name] stands for
    the identity of the Python object. *)
Record cmsg := CMsg { cm_name : nat; cm_id : Z; cm_length : Z; cm_period : Z; cm_deadline : Z; cm_jitter : Z }.

(** attributes of CANMessageSet: tau, inter_frame_space, max_error_frame_size
    (model/canbus.py:77,90,103) *)
Record canbus := Bus { b_tau : Z; b_ifs : Z; b_err : Z }.

(** max_framesize (model/canbus.py:20-22) *)
Definition max_framesize (m : cmsg) : Z := 44 + 8 * cm_length m + (33 + 8 * cm_length m) / 4.

(** get_transfer_delay (model/canbus.py:70-78) *)
Definition transfer_delay (b : canbus) (m : cmsg) : Z := max_framesize m * b_tau b.

(** get_blocking_delay (model/canbus.py:80-91); mk.id > mi.id implies mi != mk *)
Definition blocking_delay (b : canbus) (ms : list cmsg) (mi : cmsg) : Z :=
  fold_left (fun delay mk => if cm_id mi <? cm_id mk then Z.max delay (transfer_delay b mk) else delay) ms 0 + b_ifs b.

(** get_retran_delay_per_fault (model/canbus.py:93-104) *)
Definition retran_delay (b : canbus) (ms : list cmsg) (mi : cmsg) : Z :=
  fold_left (fun delay mk => if cm_id mk <=? cm_id mi then Z.max delay (transfer_delay b mk) else delay) ms 0 + b_err b.

(** get_inter_delay (model/canbus.py:106-116) *)
Definition inter_delay (b : canbus) (ms : list cmsg) (mi : cmsg) (t : Z) : Z :=
  fold_left (fun delay mk => if cm_id mk <? cm_id mi
    then delay + cdiv (t - transfer_delay b mi + cm_jitter mk + b_tau b) (cm_period mk) * (transfer_delay b mk + b_ifs b)
    else delay) ms 0.

(** the loop of get_wctt (model/canbus.py:135-146) *)
Fixpoint wctt_loop (fuel : nat) (b : canbus) (ms : list cmsg) (mi : cmsg) (faults : Z) (wctt_old : Z) : option Z :=
  match fuel with
  | O => None
  | S fuel =>
    let wctt_new := blocking_delay b ms mi + transfer_delay b mi + inter_delay b ms mi wctt_old + faults * retran_delay b ms mi in
    if wctt_new =? wctt_old then Some wctt_new
    else if cm_deadline mi <? wctt_new + cm_jitter mi then Some wctt_new
    else wctt_loop fuel b ms mi faults wctt_new
  end.

(** get_wctt (model/canbus.py:118-133) *)
Definition get_wctt (fuel : nat) (b : canbus) (ms : list cmsg) (mi : cmsg) (faults : Z) : option Z :=
  wctt_loop fuel b ms mi faults (transfer_delay b mi).

(** A number of iterations that suffices (C35_terminates); no counterpart in the code. *)
Definition wctt_fuel (b : canbus) (mi : cmsg) : nat := S (S (Z.to_nat (cm_deadline mi - cm_jitter mi - transfer_delay b mi))).

(** get_wctt as a total function (no counterpart in the code: the loop there has no bound) *)
Definition wctt (b : canbus) (ms : list cmsg) (mi : cmsg) (faults : Z) : Z :=
  match get_wctt (wctt_fuel b mi) b ms mi faults with Some w => w | None => 0 end.

(** get_wctt_fast (model/canbus.py:148-154): [vec] is mi.wctt_vec before and after *)
Definition wctt_fast (b : canbus) (ms : list cmsg) (mi : cmsg) (faults : nat) (vec : list Z) : list Z * Z :=
  if Nat.ltb faults (length vec) then (vec, nth faults vec 0)
  else let vec := vec ++ map (fun i => wctt b ms mi (Z.of_nat i)) (seq (length vec) (S faults - length vec)) in
       (vec, nth faults vec 0).

(** is_schedulable (broster.py:93-98) with get_prob_schedulable (broster.py:51-91):
    the probability vector is extended as long as the deadline is met.  Simplified:
    the probabilities themselves are not modelled; a computed entry is taken to be
    different from 0. *)
Definition br_is_schedulable (b : canbus) (ms : list cmsg) (m : cmsg) (faults : nat) : bool :=
  forallb (fun i => wctt b ms m (Z.of_nat i) + cm_jitter m <=? cm_deadline m) (seq 0 (S faults)).

(** assignment to the attribute id of one message (prio_assign.py:26, 36, 40, 59, 64) *)
Definition set_id (x : nat) (id : Z) (ms : list cmsg) : list cmsg :=
  map (fun m => if Nat.eqb (cm_name m) x then CMsg (cm_name m) id (cm_length m) (cm_period m) (cm_deadline m) (cm_jitter m) else m) ms.

(** the binary search (prio_assign.py:47-52); fuel: alpha_max - alpha_min suffices *)
Fixpoint search_alpha (fuel : nat) (test : nat -> bool) (alpha_min alpha_max : nat) : nat :=
  match fuel with
  | O => alpha_min
  | S fuel => if Nat.ltb 1 (alpha_max - alpha_min)
      then let alpha_mid := Nat.div (alpha_min + alpha_max) 2 in
           if test alpha_mid then search_alpha fuel test alpha_mid alpha_max else search_alpha fuel test alpha_min alpha_mid
      else alpha_min
  end.

(** alpha_max (prio_assign.py:43), for a true division *)
Definition alpha_limit (b : canbus) (m : cmsg) : nat := Z.to_nat (cdiv (cm_deadline m) (b_err b)).

(** alpha_max (prio_assign.py:43) if both operands are Python integers: the division
    rounds down before the ceiling is taken *)
Definition alpha_limit_int (b : canbus) (m : cmsg) : nat := Z.to_nat (cm_deadline m / b_err b).

(** the tolerance of one message at the current level (prio_assign.py:35-53); [None]
    if it is not schedulable.  The assertion in line 44 is a theorem. *)
Definition tolerance (b : canbus) (ms : list cmsg) (m : cmsg) : option nat :=
  let ms := set_id (cm_name m) 0 ms in
  let m := CMsg (cm_name m) 0 (cm_length m) (cm_period m) (cm_deadline m) (cm_jitter m) in
  if negb (br_is_schedulable b ms m 0) then None
  else Some (search_alpha (alpha_limit b m) (br_is_schedulable b ms m) 0 (alpha_limit b m)).

(** the loop over the messages at one level (prio_assign.py:32-59): the candidate
    with its tolerance; [ms] has all unassigned ids at -1 *)
Definition pick_candidate (b : canbus) (ms : list cmsg) : option (nat * nat) :=
  fold_left (fun best m =>
    if 0 <? cm_id m then best
    else match tolerance b ms m with
         | None => best
         | Some alpha => match best with
             | Some (_, alpha_global) => if Nat.ltb alpha_global alpha then Some (cm_name m, alpha) else best
             | None => Some (cm_name m, alpha)
             end
         end) (rev ms) None.

(** the loop over the levels (prio_assign.py:28-65), from the lowest priority
    [level] to 1; [None] is the exception "Priority Assignment Failed" *)
Fixpoint assign_levels (b : canbus) (level : nat) (ms : list cmsg) : option (list cmsg) :=
  match level with
  | O => Some ms
  | S l => match pick_candidate b ms with
      | None => None
      | Some (x, _) => assign_levels b l (set_id x (Z.of_nat level) ms)
      end
  end.

(** set_priorities_david_and_burns (prio_assign.py:8-65) *)
Definition set_priorities (b : canbus) (ms : list cmsg) : option (list cmsg) :=
  assign_levels b (length ms) (map (fun m => CMsg (cm_name m) (-1) (cm_length m) (cm_period m) (cm_deadline m) (cm_jitter m)) ms).
