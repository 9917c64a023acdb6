(** Model of the probabilistic part of schedcat/sched/canbus/broster.py.
    Simplified: mpmath numbers are real numbers (Coq's Reals); the logarithm of 0
    is minus infinity, as in mpmath.  get_wctt_fast is [wctt] of ModelCAN.v
    (C35_cache).  Definitions only. *)
From Coq Require Import Reals ZArith List Bool.
From Verif Require Import Base ModelCAN.
Import ListNotations.
Local Open Scope R_scope.

(** mpmath.log: None is minus infinity (broster.py:26) *)
Definition mlog (x : R) : option R := if Rle_lt_dec x 0 then None else Some (ln x).
(** mpmath.fadd with minus infinity (broster.py:26) *)
Definition madd (x y : option R) : option R := match x, y with Some a, Some b => Some (a + b) | _, _ => None end.
(** mpmath.exp (broster.py:27) *)
Definition mexp (x : option R) : R := match x with Some a => exp a | None => 0 end.

(** get_prob_poisson (broster.py:21-28) *)
Definition get_prob_poisson (events : nat) (length rate : R) : R :=
  let avg_events := rate * length in
  mexp (fold_left (fun prob i => madd prob (mlog (avg_events / INR i))) (seq 1 events) (Some (-1 * avg_events))).

(** outcome of get_prob_schedulable: the new prob_vec and the result, a failed
    assertion, or exhausted fuel (broster.py:30-91) *)
Inductive br_result := BrDone (vec : list R) (ret : R) | BrAssert | BrFuel.

(** error (broster.py:61-66) *)
Definition br_error (b : canbus) (ms : list cmsg) (m : cmsg) (mfr : R) (vec : list R) (faults : nat) : R :=
  fold_left (fun error i => error + nth i vec 0 *
      get_prob_poisson (faults - i) (IZR (wctt b ms m (Z.of_nat faults) - wctt b ms m (Z.of_nat i))) mfr) (seq 0 faults) 0.

(** the while loop (broster.py:51-71); None for an assertion failure or exhausted
    fuel, told apart by the flag *)
Fixpoint br_loop (fuel : nat) (b : canbus) (ms : list cmsg) (m : cmsg) (mfr : R) (maxfaults : option nat) (faults : nat) (vec : list R) : list R + bool :=
  if match maxfaults with None => true | Some n => Nat.leb faults n end then
    match fuel with
    | O => inr false
    | S k =>
      let w := wctt b ms m (Z.of_nat faults) in
      if (cm_deadline m <? w + cm_jitter m)%Z then inl vec
      else
        let prob := get_prob_poisson faults (IZR w) mfr - br_error b ms m mfr vec faults in
        if Rle_lt_dec prob 1 then br_loop k b ms m mfr maxfaults (S faults) (vec ++ [prob]) else inr true
    end
  else inl vec.

(** the summation that stops before it exceeds 1 (broster.py:81-86) *)
Fixpoint br_sum (retval : R) (vec : list R) : R :=
  match vec with
  | [] => retval
  | prob :: r => if Rle_lt_dec (retval + prob) 1 then br_sum (retval + prob) r else retval
  end.

(** after the loop (broster.py:73-91) *)
Definition br_finish (maxfaults : option nat) (vec : list R) : br_result :=
  let retval := match maxfaults with
                | Some n => if Nat.leb (S n) (length vec) then nth n vec 0 else 0
                | None => br_sum 0 vec
                end in
  if Rle_lt_dec retval 1 then BrDone vec (Rmin retval 1) else BrAssert.

(** get_prob_schedulable; [vec] is m.prob_vec before the call (broster.py:30-91) *)
Definition br_prob_schedulable (fuel : nat) (b : canbus) (ms : list cmsg) (m : cmsg) (mfr : R) (maxfaults : option nat) (vec : list R) : br_result :=
  let run := fun faults => match br_loop fuel b ms m mfr maxfaults faults vec with
                           | inl vec' => br_finish maxfaults vec'
                           | inr true => BrAssert
                           | inr false => BrFuel
                           end in
  match maxfaults with
  | Some n => if Nat.ltb (S n) (length vec) then BrDone vec (nth n vec 0) else run (length vec)
  | None => run 0%nat
  end.

(** is_schedulable (broster.py:93-98): the new prob_vec and the answer *)
Definition br_is_schedulable_prob (fuel : nat) (b : canbus) (ms : list cmsg) (m : cmsg) (mfr : R) (faults : nat) (vec : list R) : option (list R * bool) :=
  match br_prob_schedulable fuel b ms m mfr (Some faults) vec with
  | BrDone vec' p => Some (vec', if Req_EM_T p 0 then false else true)
  | _ => None
  end.
