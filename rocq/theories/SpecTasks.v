(** Independent specification for the task-model properties: finite job
    sequences of a sporadic task.  Nothing here refers to the model. *)
From Coq Require Import ZArith QArith List Permutation.
Import ListNotations.
Open Scope Z_scope.

(** A job: arrival time and actual execution requirement. *)
Record sjob := SJob { sj_arr : Z; sj_cost : Z }.

(** [legal C T js]: the jobs are listed by arrival, consecutive arrivals are at
    least [T] apart, and no job needs more than [C]. *)
Inductive legal (C T : Z) : list sjob -> Prop :=
| legal_nil : legal C T []
| legal_one : forall j, 0 <= sj_cost j <= C -> legal C T [j]
| legal_cons : forall j k js, 0 <= sj_cost j <= C ->
    sj_arr j + T <= sj_arr k -> legal C T (k :: js) -> legal C T (j :: k :: js).

(** Work of the jobs selected by [p]. *)
Fixpoint work (p : sjob -> bool) (js : list sjob) : Z :=
  match js with
  | [] => 0
  | j :: r => (if p j then sj_cost j else 0) + work p r
  end.

(** Demand in the window [t0, t0+len]: arrival and absolute deadline inside. *)
Definition demand (D t0 len : Z) (js : list sjob) : Z :=
  work (fun j => (t0 <=? sj_arr j) && (sj_arr j + D <=? t0 + len)) js.

(** Work requested in the closed window [t0, t0+len]. *)
Definition requested (t0 len : Z) (js : list sjob) : Z :=
  work (fun j => (t0 <=? sj_arr j) && (sj_arr j <=? t0 + len)) js.

(** Jobs with arrival and completion time; legal if separated by [T] and every
    job completes after its arrival and within [R] of it. *)
Record cjob := CJob { cj_arr : Z; cj_done : Z }.

Inductive completes (T R : Z) : list cjob -> Prop :=
| comp_nil : completes T R []
| comp_one : forall j, cj_arr j < cj_done j <= cj_arr j + R -> completes T R [j]
| comp_cons : forall j k js, cj_arr j < cj_done j <= cj_arr j + R ->
    cj_arr j + T <= cj_arr k -> completes T R (k :: js) -> completes T R (j :: k :: js).

(** Number of jobs pending (arrived, not completed) at some instant of the
    closed interval [t0, t0+len]. *)
Definition pending_in (t0 len : Z) (j : cjob) : bool :=
  (cj_arr j <=? t0 + len) && (t0 <? cj_done j).
Definition num_pending (t0 len : Z) (js : list cjob) : Z :=
  Z.of_nat (length (filter (pending_in t0 len) js)).

(** [sel] is a selection of [k] of the values [vals] (positions are not reused). *)
Definition selection (vals sel : list Q) (k : nat) : Prop :=
  length sel = k /\ exists rest, Permutation (sel ++ rest) vals.

Fixpoint total (l : list Q) : Q :=
  match l with [] => 0%Q | x :: r => (x + total r)%Q end.
