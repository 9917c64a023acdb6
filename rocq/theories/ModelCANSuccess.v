(** Model of schedcat/sched/canbus/prob_success.py.
    Simplified: mpmath numbers and floats are real numbers (Coq's Reals).
    get_wctt is [wctt] of ModelCAN.v.  Definitions only. *)
From Coq Require Import Reals ZArith List Bool.
From Verif Require Import Base ModelCAN ModelCANProb.
Import ListNotations.
Local Open Scope R_scope.

(** a message with its tid (model/canbus.py:8-17) *)
Record rmsg := RMsg { r_msg : cmsg; r_tid : Z }.

(** the summand of both sums (prob_success.py:20-21, 30-31); mpmath.binomial is the
    binomial coefficient [C] of the standard library *)
Definition binomial_term (k : nat) (pc : R) (l : nat) : R := C k l * pc ^ l * (1 - pc) ^ (k - l).

(** get_prob_correct_sync (prob_success.py:14-22); l < ceil(k/2) *)
Definition get_prob_correct_sync (k : nat) (pc : R) : R :=
  fold_left (fun retval l => retval + binomial_term k pc l) (seq 0 (Nat.div (k + 1) 2)) 0.

(** get_prob_correct_async (prob_success.py:24-32); the range is empty if k < rprime *)
Definition get_prob_correct_async (k : nat) (pc : R) (rprime : nat) : R :=
  fold_left (fun retval l => retval + binomial_term k pc l) (seq 0 (S k - rprime)) 0.

(** timely_replicas (prob_success.py:42-46); [omitted]: the ids with the flag set *)
Definition timely_replicas (b : canbus) (ms : list rmsg) (mi : rmsg) (omitted : list Z) (faults : nat) : nat :=
  fold_left (fun n mk =>
    if (r_tid mk =? r_tid mi)%Z && negb (existsb (Z.eqb (cm_id (r_msg mk))) omitted)
    then if (wctt b (map r_msg ms) (r_msg mk) (Z.of_nat faults) + cm_jitter (r_msg mk) <=? cm_deadline (r_msg mk))%Z then S n else n
    else n) ms 0%nat.

(** the loop of get_prob_time_periodic (prob_success.py:40-54); None: fuel exhausted *)
Fixpoint time_periodic_loop (fuel : nat) (b : canbus) (ms : list rmsg) (mi : rmsg) (mfr : R) (omitted : list Z) (k faults : nat) (prob : R) : option R :=
  match fuel with
  | O => None
  | S fuel =>
    let timely := timely_replicas b ms mi omitted faults in
    if Nat.ltb timely k then Some prob
    else time_periodic_loop fuel b ms mi mfr omitted k (S faults)
           (if Nat.eqb timely k then prob + get_prob_poisson faults (IZR (cm_deadline (r_msg mi))) mfr else prob)
  end.

(** get_prob_time_periodic (prob_success.py:34-56) *)
Definition get_prob_time_periodic (fuel : nat) (b : canbus) (ms : list rmsg) (mi : rmsg) (mfr : R) (omitted : list Z) (k : nat) : option R :=
  time_periodic_loop fuel b ms mi mfr omitted k 0 0.

(** powerset (prob_success.py:58-68): the list of all items it yields.  Simplified:
    on the empty list, where the code recurses without end, there are none. *)
Fixpoint powerset (ids : list Z) : list (list Z) :=
  match ids with
  | [] => []
  | x :: r => match r with
              | [] => [ids; []]
              | _ => flat_map (fun item => [item; x :: item]) (powerset r)
              end
  end.

(** get_replication_factor (model/canbus.py:178-183) *)
Definition replication_factor (ms : list rmsg) (mi : rmsg) : nat :=
  fold_left (fun n mk => if (r_tid mk =? r_tid mi)%Z then S n else n) ms 0%nat.

(** replica_ids (prob_success.py:92-95) *)
Definition replica_ids (ms : list rmsg) (mi : rmsg) : list Z :=
  map (fun mk => cm_id (r_msg mk)) (filter (fun mk => (r_tid mk =? r_tid mi)%Z) ms).

(** prob_time_correct (prob_success.py:110-113) *)
Definition prob_time_correct (fuel : nat) (b : canbus) (ms : list rmsg) (mi : rmsg) (mfr : R) (omitted : list Z) (prob_correct : list R) (s : nat) : option R :=
  fold_left (fun acc k => match acc, get_prob_time_periodic fuel b ms mi mfr omitted k with
                          | Some a, Some p => Some (a + p * nth k prob_correct 0)
                          | _, _ => None
                          end) (seq 1 s) (Some 0).

(** get_prob_schedulable (prob_success.py:70-117); None: fuel exhausted or the
    assertion (line 96) failed *)
Definition ps_prob_schedulable (fuel : nat) (b : canbus) (ms : list rmsg) (mi : rmsg) (mfr po boot_time : R) (sync : bool) : option R :=
  let r := replication_factor ms mi in
  let rprime := S (Nat.div r 2) in
  let prob_msg_corrupted := 1 - get_prob_poisson 0 (IZR (cm_deadline (r_msg mi))) po in
  let prob_msg_omitted := 1 - get_prob_poisson 0 boot_time po in
  let prob_correct := map (fun k => if sync then get_prob_correct_sync k prob_msg_corrupted
                                    else get_prob_correct_async k prob_msg_corrupted rprime) (seq 0 (S r)) in
  let ids := replica_ids ms mi in
  if Nat.eqb r (length ids) then
    match fold_left (fun acc omitted =>
        let s := (r - length omitted)%nat in
        let prob_omitted := prob_msg_omitted ^ (r - s) * (1 - prob_msg_omitted) ^ s in
        match acc, prob_time_correct fuel b ms mi mfr omitted prob_correct s with
        | Some a, Some p => Some (a + prob_omitted * p)
        | _, _ => None
        end) (powerset ids) (Some 0) with
    | Some prob_success => Some (Rmin prob_success 1)
    | None => None
    end
  else None.

(** get_fit_rate (prob_success.py:119-132), for a positive probability *)
Definition get_fit_rate (period : Z) (prob_success : R) : R :=
  if Req_EM_T prob_success 1 then 0
  else
    let lna := ln prob_success in
    let lnasq := lna * lna in
    let term1 := (1 - prob_success) / prob_success in
    let mabf := term1 / lnasq in
    let mtbf := mabf * IZR period / 3600000 in
    1000000000 / mtbf.
