(** Independent specification: global schedulers with priority points (G-EDF-like,
    "GEL") on sequential sporadic tasks, and response-time guarantees. *)
From Coq Require Import ZArith QArith List Bool.
From Verif Require Import Base SpecUni SpecQPA SpecGlobal.
Import ListNotations.
Open Scope Z_scope.

(** The priority point of a job: a fixed distance after its arrival. *)
Definition prio_point (pps : list Z) (s : jobseq) (j : job) : Z :=
  Z.of_nat (arr s (fst j) (snd j)) + nth (fst j) pps 0.

(** Global preemptive scheduling by priority points on m processors, ties
    broken arbitrarily: a ready job waits only while m jobs with priority points
    that are no later run. *)
Definition gel (pps : list Z) (n m : nat) (s : jobseq) (sc : gschedule) : Prop :=
  forall t j, (fst j < n)%nat -> gready s sc j t -> ~ In j (sc t) ->
    length (sc t) = m /\ forall j', In j' (sc t) -> prio_point pps s j' <= prio_point pps s j.

(** Whatever legal job sequence the tasks release and however ties are broken,
    every job of the i-th task completes within [nth i bounds] of its arrival. *)
Definition gel_responses (cps : list (Z * Z)) (pps : list Z) (m : nat) (bounds : list Z) : Prop :=
  forall s sc,
    legal_seq (map (fun cp => Promise (fst cp) (snd cp) 0) cps) s ->
    gvalid (length cps) m s sc -> gel pps (length cps) m s sc ->
    forall j b, (fst j < length cps)%nat -> nth_error bounds (fst j) = Some b -> responds s sc j b.

(** The k-th compliance condition of the analysis: with x_i = s - C_i/m, the
    demand S(Y) and any K tasks, the work that can delay a job fits into m*s.
    Tasks are triples (cost, period, relative priority point). *)
Definition x_of (m : nat) (s : Q) (t : Z * Z * Z) : Q := (s - inject_Z (fst (fst t)) / inject_Z (Z.of_nat m))%Q.
Definition u_of (t : Z * Z * Z) : Q := (inject_Z (fst (fst t)) / inject_Z (snd (fst t)))%Q.
Definition late_of (t : Z * Z * Z) : Q := inject_Z (Z.min (snd t) (snd (fst t))).
Definition compliance (m K : nat) (ts : list (Z * Z * Z)) (s : Q) : Prop :=
  (0 <= s)%Q /\ forall A, NoDup A -> length A = K -> (forall i, In i A -> (i < length ts)%nat) ->
    (fold_right Qplus 0 (map (fun t => inject_Z (fst (fst t)) - u_of t * late_of t) ts) +
     fold_right Qplus 0 (map (fun i => let t := nth i ts (0%Z, 1%Z, 0%Z) in u_of t * (x_of m s t + late_of t)) A)
     <= inject_Z (Z.of_nat m) * s)%Q.

(** Non-preemptive global scheduling by priority points: a job that has started
    runs until it completes, and a ready job waits only while m jobs run, of
    which those that start now have priority points that are no later. *)
Definition np_gel (pps : list Z) (n m : nat) (s : jobseq) (sc : gschedule) : Prop :=
  forall t j, (fst j < n)%nat ->
    (0 < gservice sc j t -> gservice sc j t < Z.of_nat (cst s (fst j) (snd j)) -> In j (sc t)) /\
    (gready s sc j t -> ~ In j (sc t) ->
      length (sc t) = m /\ forall j', In j' (sc t) -> gservice sc j' t = 0 -> prio_point pps s j' <= prio_point pps s j).

Definition np_gel_responses (cps : list (Z * Z)) (pps : list Z) (m : nat) (bounds : list Z) : Prop :=
  forall s sc,
    legal_seq (map (fun cp => Promise (fst cp) (snd cp) 0) cps) s ->
    gvalid (length cps) m s sc -> np_gel pps (length cps) m s sc ->
    forall j b, (fst j < length cps)%nat -> nth_error bounds (fst j) = Some b -> responds s sc j b.
