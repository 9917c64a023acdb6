(** Independent specification for G-FRL: compliance and schedules with rational
    relative priority points. *)
From Coq Require Import ZArith QArith List Bool.
From Verif Require Import Base SpecUni SpecQPA SpecGlobal.
Import ListNotations.

(** a task as (cost, period, relative priority point) *)
Definition qtriple := (Z * Z * Q)%type.
Definition cost_q (t : qtriple) : Q := inject_Z (fst (fst t)).
Definition util_q (t : qtriple) : Q := (inject_Z (fst (fst t)) / inject_Z (snd (fst t)))%Q.

(** work that can delay a job, if the tasks of A are late: as [compliance] in
    SpecTardiness, for priority points between 0 and the period *)
Definition delaying (m : Q) (ts : list qtriple) (s : Q) (A : list nat) : Q :=
  (fold_right Qplus 0 (map (fun t => cost_q t - util_q t * snd t) ts) +
   fold_right Qplus 0 (map (fun i => let t := nth i ts (0%Z, 1%Z, 0%Q) in util_q t * (s - cost_q t / m + snd t)) A))%Q.

(** scheduling by rational priority points *)
Definition prio_q (pps : list Q) (s : jobseq) (j : job) : Q :=
  (inject_Z (Z.of_nat (arr s (fst j) (snd j))) + nth (fst j) pps 0)%Q.

Definition gel_q (pps : list Q) (n m : nat) (s : jobseq) (sc : gschedule) : Prop :=
  forall t j, (fst j < n)%nat -> gready s sc j t -> ~ In j (sc t) ->
    length (sc t) = m /\ forall j', In j' (sc t) -> (prio_q pps s j' <= prio_q pps s j)%Q.
