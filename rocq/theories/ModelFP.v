(** Model of schedcat/sched/fp/rta.py: uniprocessor fixed-priority
    response-time analysis.  Definitions only. *)
From Coq Require Import ZArith List Bool.
From Verif Require Import Base ModelTasks.
Import ListNotations.
Open Scope Z_scope.

(** A task together with the optional attributes read by rta.py:5-25.
    [None] means that the attribute is not in the task's [__dict__]. *)
Record fptask := FPTask {
  fp_task : task;
  fp_blocked : option Z;
  fp_jitter : option Z;
  fp_suspended : option Z;
  fp_prio_inversion : option Z }.

(** the default 0 for a missing attribute (rta.py:15-25) *)
Definition attr (x : option Z) : Z := match x with Some v => v | None => 0 end.

(** get_blocked, get_jitter, get_suspended, get_prio_inversion (rta.py:15-25) *)
Definition get_blocked (t : fptask) : Z := attr (fp_blocked t).
(** get_jitter (rta.py:18-19) *)
Definition get_jitter (t : fptask) : Z := attr (fp_jitter t).
(** get_suspended (rta.py:21-22) *)
Definition get_suspended (t : fptask) : Z := attr (fp_suspended t).
(** get_prio_inversion (rta.py:24-25) *)
Definition get_prio_inversion (t : fptask) : Z := attr (fp_prio_inversion t).

(** An already analysed task: the task and its [response_time] attribute (rta.py:30, 43). *)
Definition analysed := (fptask * Z)%type.

(** Jitter attributed to a higher-priority task (the [hp_jitter] argument);
    [get_jitter] (rta.py:18-19) ignores the response time. *)
Definition hp_get_jitter (a : analysed) : Z := get_jitter (fst a).

(** suspension_jitter (rta.py:27-32) *)
Definition suspension_jitter (a : analysed) : Z :=
  if 0 <? get_suspended (fst a) then snd a - t_cost (fp_task (fst a))
  else get_jitter (fst a).

(** Right-hand side of the recurrence (rta.py:38-40) *)
Definition rta_demand (own : Z) (hp : list analysed) (hpj : analysed -> Z) (delta : Z) : Z :=
  fold_left (fun d a => d + t_cost (fp_task (fst a)) *
                            cdiv (delta + hpj a) (t_period (fp_task (fst a)))) hp own.

(** Outcome of a search loop (rta.py:34-49): out of fuel, no fixed point, or the value. *)
Inductive outcome (A : Type) := OutOfFuel | Rejected | Accepted (x : A).
Arguments OutOfFuel {A}. Arguments Rejected {A}. Arguments Accepted {A}.

(** The while loop of _rta_jitter_aware (rta.py:37-49); returns [delta]. *)
Fixpoint rta_loop (fuel : nat) (own : Z) (hp : list analysed) (hpj : analysed -> Z)
    (deadline delta : Z) : outcome Z :=
  match fuel with
  | O => OutOfFuel
  | S f =>
    if delta <=? deadline then
      let demand := rta_demand own hp hpj delta in
      if demand =? delta then Accepted delta
      else rta_loop f own hp hpj deadline demand
    else Rejected
  end.

(** _rta_jitter_aware (rta.py:34-49).  The value of [Accepted] is the
    [response_time] stored in the task (line 43). *)
Definition rta_jitter_aware_gen (fuel : nat) (t : fptask) (own : Z) (hp : list analysed)
    (hpj : analysed -> Z) : outcome Z :=
  let start := zsum (map (fun a => t_cost (fp_task (fst a))) hp) + own in
  match rta_loop fuel own hp hpj (t_deadline (fp_task t)) start with
  | Accepted delta => Accepted (delta + get_jitter t)
  | Rejected => Rejected
  | OutOfFuel => OutOfFuel
  end.

(** rta_jitter_aware (rta.py:51-54) *)
Definition rta_jitter_aware fuel t hp :=
  rta_jitter_aware_gen fuel t (get_prio_inversion t + t_cost (fp_task t)) hp hp_get_jitter.
(** rta_suspension_aware (rta.py:56-61) *)
Definition rta_suspension_aware fuel t hp :=
  rta_jitter_aware_gen fuel t (get_prio_inversion t + t_cost (fp_task t) + get_suspended t) hp
                       suspension_jitter.
(** legacy_rta_jitter_aware (rta.py:63-66) *)
Definition legacy_rta_jitter_aware fuel t hp :=
  rta_jitter_aware_gen fuel t (get_blocked t + t_cost (fp_task t)) hp hp_get_jitter.
(** legacy_rta_suspension_aware (rta.py:68-73) *)
Definition legacy_rta_suspension_aware fuel t hp :=
  rta_jitter_aware_gen fuel t (get_blocked t + t_cost (fp_task t)) hp suspension_jitter.

(** has_self_suspensions (rta.py:75-79) *)
Definition has_self_suspensions (ts : list fptask) : bool :=
  existsb (fun t => match fp_suspended t with Some s => negb (s =? 0) | None => false end) ts.

(** uses_legacy_blocked_field (rta.py:81-85) *)
Definition uses_legacy_blocked_field (ts : list fptask) : bool :=
  existsb (fun t => match fp_blocked t with Some _ => true | None => false end) ts.

(** Choice of the analysis (rta.py:91-105) *)
Definition select_rta (ts : list fptask) : nat -> fptask -> list analysed -> outcome Z :=
  if uses_legacy_blocked_field ts then
    if has_self_suspensions ts then legacy_rta_suspension_aware else legacy_rta_jitter_aware
  else
    if has_self_suspensions ts then rta_suspension_aware else rta_jitter_aware.

(** The for loop of bound_response_times (rta.py:106-109).  [done] are the
    tasks analysed so far in order ([taskset[0:i]]). The result is the verdict
    together with the response times stored so far. *)
Fixpoint rta_all (rta : fptask -> list analysed -> outcome Z) (done : list analysed)
    (todo : list fptask) : outcome (bool * list analysed) :=
  match todo with
  | [] => Accepted (true, done)
  | t :: rest =>
    match rta t done with
    | OutOfFuel => OutOfFuel
    | Rejected => Accepted (false, done)
    | Accepted r => rta_all rta (done ++ [(t, r)]) rest
    end
  end.

(** bound_response_times (rta.py:87-111) *)
Definition bound_response_times (fuel : nat) (no_cpus : Z) (ts : list fptask)
    : outcome (bool * list analysed) :=
  if negb ((no_cpus =? 1) && only_constrained_deadlines (map fp_task ts))
  then Accepted (false, [])
  else rta_all (select_rta ts fuel) [] ts.
