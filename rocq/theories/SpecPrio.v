(** Locks that serve waiting requests by locking priority.  [rp] gives the
    locking priority of a task's requests for a resource; smaller is higher. *)
From Coq Require Import NArith ZArith List.
From Verif Require Import ModelLocking SpecLocking SpecSpinFP.
Open Scope Z_scope.

(** A request that starts while another one waits has at least its locking priority. *)
Definition priority_order (rp : nat -> nat -> N) (info : list taskinfo) (E : execution) : Prop :=
  forall q a b, global_resource info q -> In a (x_tr E q) -> In b (x_tr E q) ->
    cr_issue b < cr_start a -> cr_start a < cr_start b -> (rp (cr_task a) q <= rp (cr_task b) q)%N.

(** Requests of the same locking priority are served in the order in which they were issued. *)
Definition fifo_among_equals (rp : nat -> nat -> N) (info : list taskinfo) (E : execution) : Prop :=
  forall q a b, global_resource info q -> In a (x_tr E q) -> In b (x_tr E q) ->
    rp (cr_task a) q = rp (cr_task b) q -> cr_issue a < cr_issue b -> cr_end a <= cr_start b.

(** All tasks on a processor that use the resource have the locking priority [pi] for it. *)
Definition uniform_priority (rp : nat -> nat -> N) (info : list taskinfo) (c q : nat) (pi : N) : Prop :=
  forall t, uses info q t -> ti_cluster t = c -> rp (ti_id t) q = pi.

(** Some task on another processor has a request of positive length whose locking
    priority is lower than (or, with [orequal], at most) [pi]. *)
Definition remote_below (rp : nat -> nat -> N) (info : list taskinfo) (c q : nat) (pi : N) (orequal : bool) : Prop :=
  exists t r, In t info /\ ti_cluster t <> c /\ In r (ti_requests t) /\ q_res r = q /\ (0 < q_len r)%N /\
    ((pi < rp (ti_id t) q)%N \/ (orequal = true /\ rp (ti_id t) q = pi)).

(** The conditions under which the bounds for priority-ordered locks hold for the
    tasks on processor [c]: for each global resource, one locking priority per
    processor, and a request of lower locking priority on another processor. *)
Definition prio_condition (rp : nat -> nat -> N) (info : list taskinfo) (c : nat) : Prop :=
  forall q, global_resource info q -> exists pi, uniform_priority rp info c q pi /\ (pi <= N.of_nat (length info))%N /\ remote_below rp info c q pi false.

(** The same for priority-ordered locks with FIFO ties: the highest locking
    priority, or the task itself requests the resource and so does a task on another
    processor with lower or equal locking priority. *)
Definition prio_fifo_condition (rp : nat -> nat -> N) (info : list taskinfo) (t : taskinfo) : Prop :=
  forall q, global_resource info q -> exists pi, uniform_priority rp info (ti_cluster t) q pi /\ (pi <= N.of_nat (length info))%N /\
    (pi = 0%N \/ (remote_below rp info (ti_cluster t) q pi true /\ exists r, In r (ti_requests t) /\ q_res r = q /\ (0 < q_num r)%N)).
