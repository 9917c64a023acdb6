(** Reading of task attributes for the fixed-priority properties. *)
From Coq Require Import ZArith List.
From Verif Require Import ModelTasks ModelFP SpecUni.
Import ListNotations.
Open Scope Z_scope.

(** Well-formed inputs: positive cost and period, attributes not negative. *)
Definition wf_task (t : fptask) : Prop :=
  1 <= t_cost (fp_task t) /\ 1 <= t_period (fp_task t) /\
  0 <= attr (fp_blocked t) /\ 0 <= attr (fp_jitter t) /\
  0 <= attr (fp_suspended t) /\ 0 <= attr (fp_prio_inversion t).

(** What a task with these parameters promises about its jobs. *)
Definition promise_of (t : fptask) : promise :=
  Promise (t_cost (fp_task t)) (t_period (fp_task t)) (attr (fp_jitter t)).

(** Priority inversion that the schedule may inflict on the i-th task. *)
Definition allowed (f : fptask -> Z) (ts : list fptask) (i : nat) : Z :=
  match nth_error ts i with Some t => f t | None => 0 end.

Definition no_suspension (ts : list fptask) : Prop := Forall (fun t => attr (fp_suspended t) = 0) ts.
Definition no_legacy (ts : list fptask) : Prop := Forall (fun t => fp_blocked t = None) ts.
Definition no_inversion (ts : list fptask) : Prop := Forall (fun t => attr (fp_prio_inversion t) = 0) ts.

(** [easier t' t]: t' needs no more and arrives no more often than t. *)
Record easier (t' t : fptask) : Prop := {
  ez_cost : t_cost (fp_task t') <= t_cost (fp_task t);
  ez_period : t_period (fp_task t) <= t_period (fp_task t');
  ez_deadline : t_deadline (fp_task t) <= t_deadline (fp_task t');
  ez_constrained : t_deadline (fp_task t') <= t_period (fp_task t');
  ez_jitter : attr (fp_jitter t') <= attr (fp_jitter t);
  ez_susp : attr (fp_suspended t') <= attr (fp_suspended t);
  ez_inv : attr (fp_prio_inversion t') <= attr (fp_prio_inversion t);
  ez_blocked : attr (fp_blocked t') <= attr (fp_blocked t);
  ez_legacy : fp_blocked t' = None <-> fp_blocked t = None }.

