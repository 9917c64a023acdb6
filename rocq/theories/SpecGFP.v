(** Independent specification: global fixed-priority schedules on m processors,
    with bounded blocking.  A smaller task index means a higher priority. *)
From Coq Require Import ZArith List Bool.
From Verif Require Import Base SpecUni SpecQPA SpecGlobal.
Import ListNotations.
Open Scope Z_scope.

(** Preemptive global fixed-priority scheduling: a ready job waits only while m
    jobs of more important tasks run. *)
Definition gfp_strict (n m : nat) (s : jobseq) (sc : gschedule) : Prop :=
  forall t j, (fst j < n)%nat -> gready s sc j t -> ~ In j (sc t) ->
    length (sc t) = m /\ forall j', In j' (sc t) -> (fst j' < fst j)%nat.

(** The same with blocking: a ready job may also wait in slots that are charged
    to its blocking.  [direct j t]: j is blocked by a job of a more important
    task that is running; [other j t]: j is blocked in any other way. *)
Definition gfp_blocking (n m : nat) (s : jobseq) (sc : gschedule) (other direct : job -> nat -> bool) : Prop :=
  forall t j, (fst j < n)%nat -> gready s sc j t -> ~ In j (sc t) ->
    other j t = true \/
    (direct j t = true /\ exists j', In j' (sc t) /\ (fst j' < fst j)%nat) \/
    (length (sc t) = m /\ forall j', In j' (sc t) -> (fst j' < fst j)%nat).

(** No job of task i is charged more than [b i] slots in total, of which at most
    [h i] are direct blocking by more important tasks. *)
Definition blocked_within (n : nat) (other direct : job -> nat -> bool) (b h : nat -> Z) : Prop :=
  forall j t, (fst j < n)%nat ->
    sumf (fun u => b2z (other j u)) t <= b (fst j) - h (fst j) /\
    sumf (fun u => b2z (direct j u)) t <= h (fst j).

(** Work of jobs of cost C packed into a window of length y, one per T time
    units from its start. *)
Definition packed (C T y : Z) : Z :=
  sumf (fun j => Z.max 0 (Z.min C (y - Z.of_nat j * T))) (Z.to_nat y).

(** [r] is the least number, not below [lo], that is at least [f r]. *)
Definition least_bound (f : Z -> Z) (lo r : Z) : Prop :=
  lo <= r /\ f r <= r /\ forall x, lo <= x -> f x <= x -> r <= x.

(** Bertogna's recurrence: cost + blocking + the m-th part of the interference of
    the more important tasks (cost, period, bound on the response time), reduced
    by the direct blocking. *)
Definition hp_work (hp : list (Z * Z * Z)) (x : Z) : Z :=
  zsum (map (fun p => let '(C, T, R) := p in packed C T (x + R - C)) hp).
Definition bert_recurrence (m C b h : Z) (hp : list (Z * Z * Z)) (x : Z) : Z :=
  C + b + Z.max 0 (hp_work hp x - h) / m.

(** Guan's recurrence: at most m-1 of the more important tasks, chosen in the
    worst way, carry work into the window. *)
Definition no_carry_work (C T x : Z) : Z := packed C T x.
Definition carry_work (C T R x : Z) : Z :=
  let y := Z.max 0 (x - C) in
  Z.max 0 (C * (y / T) + C + Z.min (C - 1) (Z.max 0 (y mod T - (T - R)))).
Definition chosen_work (Ck x : Z) (hp : list (Z * Z * Z)) (carry : list bool) : Z :=
  zsum (map (fun pc => let '((C, T, R), c) := pc in
    Z.min (if c : bool then carry_work C T R x else no_carry_work C T x) (x - Ck + 1)) (combine hp carry)).
Definition worst_work (m : nat) (Ck x : Z) (hp : list (Z * Z * Z)) (v : Z) : Prop :=
  (exists carry, length carry = length hp /\ (count_occ bool_dec carry true < m)%nat /\ chosen_work Ck x hp carry = v) /\
  forall carry, length carry = length hp -> (count_occ bool_dec carry true < m)%nat -> chosen_work Ck x hp carry <= v.
