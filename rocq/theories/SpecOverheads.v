(** Specification for C25 and C26: what accounting for overheads must do to the
    parameters of a task. *)
From Coq Require Import ZArith QArith List.
Import ListNotations.
Open Scope Q_scope.

(** the second parameter triple (cost, period, deadline) is at least as hard as the first *)
Definition harder (c p d c' p' d' : Q) : Prop := c <= c' /\ p' <= p /\ d' <= d.

(** a job can finish before the next release and its deadline *)
Definition fits (c p d : Q) : Prop := c <= p /\ c <= d.

(** [x] is a multiple of [q] *)
Definition multiple (q x : Q) : Prop := exists k : Z, x == inject_Z k * q.

(** [x] is the largest multiple of [q] not above [y] *)
Definition rounded_down (q y x : Q) : Prop := multiple q x /\ x <= y /\ y < x + q.

(** [x] is the smallest multiple of [q] not below [y] *)
Definition rounded_up (q y x : Q) : Prop := multiple q x /\ y <= x /\ x < y + q.
