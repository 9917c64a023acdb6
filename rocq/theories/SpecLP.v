(** What it means to solve a linear program, independent of how it is built. *)
From Coq Require Import NArith QArith List.
From Verif Require Import ModelLP.
Import ListNotations.
Open Scope Q_scope.

(** All variables range over [0,1] (the defaults of glpk_solve), binary ones
    over {0,1}; equalities and inequalities hold. *)
Record feasible {V} (lp : lprog V) (x : V -> Q) : Prop := {
  fs_range : forall v, 0 <= x v <= 1;
  fs_binary : forall v, In v (lp_bins lp) -> x v == 0 \/ x v == 1;
  fs_eqs : forall e b, In (e, b) (lp_eqs lp) -> evaluate x e == b;
  fs_ineqs : forall e b, In (e, b) (lp_ineqs lp) -> evaluate x e <= b }.

(** [opt] is the value that an optimal solution gives to the objective. *)
Definition optimum {V} (lp : lprog V) (opt : Q) : Prop :=
  (exists x, feasible lp x /\ evaluate x (lp_obj lp) == opt) /\
  forall x, feasible lp x -> evaluate x (lp_obj lp) <= opt.

(** Nearest integer: never further than one half away. *)
Definition nearest (q : Q) (z : Z) : Prop := inject_Z z - (1 # 2) <= q <= inject_Z z + (1 # 2).

(** Task, resource and request numbers for which the variables are told apart. *)
Definition in_range (v : var) : Prop := (N.of_nat (v_task v) < 2 ^ 30 /\ N.of_nat (v_res v) < 2 ^ 10 /\ N.of_nat (v_req v) < 2 ^ 20)%N.

(** [opt] is what solving the program over column indices yields, when the
    variables [vs], among them all of the program, have been looked up before. *)
Definition solved (lp : lprog var) (opt : Q) : Prop :=
  exists vs, (forall v, In v (lp_vars lp) -> In v vs) /\ (forall v, In v vs -> in_range v) /\ optimum (indexed (snd (lookups vs [])) lp) opt.
