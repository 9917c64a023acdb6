(** Specification for C24: what the server tree of RUN means at an instant.  A
    server that was formed by packing executes exactly one of its clients while
    it executes and none otherwise; a dual server executes exactly when the
    server it was created from does not. *)
From Coq Require Import ZArith QArith List.
From Verif Require Import Base ModelTasks ModelRUN.
Import ListNotations.
Open Scope Q_scope.

Definition indicator (b : bool) : Q := if b then 1 else 0.

(** [exec s b c]: server [s] executes (b) or not, and then [c] of the original
    servers below it execute *)
Inductive exec : server -> bool -> Q -> Prop :=
| exec_original : forall r d b, exec (Server r d [] None) b (indicator b)
| exec_dual : forall r d cl p b c, exec p (negb b) c -> exec (Server r d cl (Some p)) b c
| exec_packed : forall r d cl b bs cs, cl <> [] -> qsum (map indicator bs) == indicator b ->
    execs cl bs cs -> exec (Server r d cl None) b (qsum cs)
with execs : list server -> list bool -> list Q -> Prop :=
| execs_nil : execs [] [] []
| execs_cons : forall s b c l bs cs, exec s b c -> execs l bs cs -> execs (s :: l) (b :: bs) (c :: cs).

(** a server of the original system: neither packed nor dual *)
Definition original (s : server) : Prop := clients s = [] /\ created_from s = None /\ 0 <= rate s <= 1.

(** rates of a level *)
Definition rates_ok (l : list server) : Prop := Forall (fun s => 0 <= rate s <= 1) l.

(** an integral value *)
Definition integral (q : Q) : Prop := exists z : Z, q == inject_Z z.

(** [p] serves the non-empty group [g]: it has their total rate, their deadlines, and them as clients *)
Definition serves (p : server) (g : list server) : Prop :=
  g <> [] /\ rate p == total_rate g /\ clients p = g /\ forall t, In t (deadlines p) <-> exists s, In s g /\ In t (deadlines s).

(** The levels of a reduction: each next level consists of the complements of
    servers for the groups of a partition of the level before; the last level is
    partitioned into groups that are served by servers of rate one. *)
Inductive reduction : list (list server) -> list server -> Prop :=
| reduction_last : forall l groups packed,
    Forall2 (fun g p => serves p g /\ created_from p = None /\ rate p == 1) groups packed ->
    Permutation.Permutation (concat groups) l -> reduction [l] packed
| reduction_next : forall l l' ls packed groups,
    Forall2 (fun g d => exists p, created_from d = Some p /\ created_from p = None /\ serves p g /\ rate d == 1 - rate p /\ deadlines d = deadlines p) groups l' ->
    Permutation.Permutation (concat groups) l -> reduction (l' :: ls) packed -> reduction (l :: l' :: ls) packed.

(** totals decrease strictly from level to level *)
Fixpoint decreasing_totals (ls : list (list server)) : Prop :=
  match ls with
  | l :: ((l' :: _) as r) => total_rate l' <= total_rate l - 1 /\ decreasing_totals r
  | _ => True
  end.
