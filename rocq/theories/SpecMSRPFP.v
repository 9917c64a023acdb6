(** Response times under partitioned fixed priorities with FIFO spin locks, as a
    condition on the task set. *)
From Coq Require Import NArith ZArith List Bool.
From Verif Require Import ModelLocking SpecLocking SpecSpinFP SpecSpinEDF.
Import ListNotations.
Open Scope Z_scope.

(** A job of lower priority on the same processor may block [t] for [v]: with a
    global resource, including the time it spins, or with a local resource whose
    ceiling is at least the priority of [t]. *)
Definition fp_blocker (info : list taskinfo) (n : nat) (t : taskinfo) (v : N) : Prop :=
  exists x q, In x info /\ ti_cluster x = ti_cluster t /\ (ti_prio t < ti_prio x)%N /\ In q (ti_requests x) /\
    ((global_resource info (q_res q) /\ v = (fifo_wait info n (ti_cluster t) (q_res q) + q_len q)%N) \/
     (~ global_resource info (q_res q) /\ v = q_len q /\ exists u, uses info (q_res q) u /\ (ti_prio u <= ti_prio t)%N)).
(** The local tasks of higher priority. *)
Definition higher (info : list taskinfo) (t : taskinfo) : list taskinfo :=
  filter (fun h => Nat.eqb (ti_cluster h) (ti_cluster t) && (ti_prio h <? ti_prio t)%N) info.
(** Demand within [R] time units, spinning included. *)
Definition fp_demand (info : list taskinfo) (n : nat) (t : taskinfo) (R : Z) : Z :=
  Z.of_N (inflated info n t) +
  fold_right Z.add 0 (map (fun h => (R + Z.of_N (ti_period h) - 1) / Z.of_N (ti_period h) * Z.of_N (inflated info n h)) (higher info t)).
Definition fp_criterion (info : list taskinfo) (n : nat) (t : taskinfo) (R : Z) : Prop :=
  0 <= R <= Z.of_N (ti_period t) /\ fp_demand info n t R <= R /\ forall v, fp_blocker info n t v -> fp_demand info n t R + Z.of_N v <= R.
