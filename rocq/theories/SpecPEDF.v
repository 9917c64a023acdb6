(** Solutions of a linear program in which some variables are declared without
    an upper bound, and what a solver may answer.  Nothing here refers to the
    analysis. *)
From Coq Require Import NArith QArith Qround List.
From Verif Require Import ModelLocking ModelLP SpecLP SpecLocking SpecSpinFP.
Import ListNotations.
Open Scope Q_scope.

(** Variables are between 0 and 1 unless they are in [free]; binary ones are 0 or 1. *)
Record bounded_feasible {V} (lp : lprog V) (free : list V) (x : V -> Q) : Prop := {
  bf_low : forall v, 0 <= x v;
  bf_up : forall v, ~ In v free -> x v <= 1;
  bf_bin : forall v, In v (lp_bins lp) -> x v == 0 \/ x v == 1;
  bf_eq : forall e b, In (e, b) (lp_eqs lp) -> evaluate x e == b;
  bf_ineq : forall e b, In (e, b) (lp_ineqs lp) -> evaluate x e <= b }.

(** No solution exceeds [v]. *)
Definition value_bound {V} (lp : lprog V) (free : list V) (v : Q) : Prop := forall x, bounded_feasible lp free x -> evaluate x (lp_obj lp) <= v.
(** [v] is the value of a best solution. *)
Definition bounded_optimum {V} (lp : lprog V) (free : list V) (v : Q) : Prop :=
  (exists x, bounded_feasible lp free x /\ evaluate x (lp_obj lp) == v) /\ value_bound lp free v.

(** Task and resource numbers fit into 20 bits. *)
Definition numbers_fit (info : list taskinfo) : Prop :=
  (N.of_nat (length info) <= 2 ^ 20)%N /\ forall t q, In t info -> In q (ti_requests t) -> (N.of_nat (q_res q) < 2 ^ 20)%N.
(** Tasks that share a local resource have the same relative deadline. *)
Definition local_sharing_same_deadline (info : list taskinfo) : Prop :=
  forall r t u, ~ global_resource info r -> uses info r t -> uses info r u -> ti_deadline t = ti_deadline u.
