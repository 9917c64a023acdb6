(** Independent specification for the task set generators: which task a draw
    stands for, the utilization of a list of tasks, and what it means that a
    value was drawn from a distribution.  Of the model only the types of tasks,
    draws and distributions are used. *)
From Coq Require Import ZArith QArith Qround List Bool.
From Verif Require Import Base ModelTasks ModelGen.
Import ListNotations.
Open Scope Q_scope.

(** sum of cost over period *)
Fixpoint total_util (ts : list task) : Q :=
  match ts with [] => 0 | t :: r => inject_Z (t_cost t) / inject_Z (t_period t) + total_util r end.

Fixpoint total (l : list Q) : Q := match l with [] => 0 | x :: r => x + total r end.

(** [t] is the task of draw [d]: its parameters are the converted ones of the
    draw, or one if that is less than one. *)
Definition task_of (conv : Q -> Z) (d : draw) : task :=
  let c := conv (d_period d * d_util d) in
  let p := conv (d_period d) in
  let dl := conv (d_deadline d (d_period d * d_util d) (d_period d)) in
  Task (if (c <? 1)%Z then 1 else c) (if (p <? 1)%Z then 1 else p) (if (dl <? 1)%Z then 1 else dl).

(** the conversion of times to integers respects the order *)
Definition monotone (conv : Q -> Z) : Prop := forall a b, a <= b -> (conv a <= conv b)%Z.

(** a result of random.random() *)
Definition unit_draw (r : Q) : Prop := 0 <= r /\ r < 1.

(** [v] is a value that the distribution yields for some random numbers *)
Definition drawn_from (d : dist) (v : Q) : Prop := exists rs, Forall unit_draw rs /\ d rs = Some v.
