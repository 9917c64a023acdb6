(** Model of native/src/apa_feas.cpp, native/include/apa_feas.h and
    get_native_affinities in schedcat/sched/__init__.py.  A hash set of
    processors is a list without duplicates, in the order of iteration.  The
    solver is not modelled: its answer is a parameter.  Doubles are exact
    rationals.  Definitions only. *)
From Coq Require Import NArith ZArith QArith List Bool.
From Verif Require Import ModelNative ModelLP.
Import ListNotations.

(** Affinity: hashset<unsigned int> (apa_feas.h:13) *)
Definition affinity := list nat.
(** Affinities (apa_feas.h:14) *)
Definition affinities := list affinity.

(** insert of a hash set (apa_feas.h:35; apa_feas.cpp:22) *)
Definition set_insert (c : nat) (a : affinity) : affinity := if existsb (Nat.eqb c) a then a else a ++ [c].

(** AffinityRestrictions::add_cpu (apa_feas.h:30-36): the vector grows with empty sets up to task_id *)
Fixpoint add_cpu (afs : affinities) (task_id cpu : nat) : affinities :=
  match afs, task_id with
  | [], O => [[cpu]]
  | [], S k => [] :: add_cpu [] k cpu
  | a :: r, O => set_insert cpu a :: r
  | a :: r, S k => a :: add_cpu r k cpu
  end.

(** get_native_affinities (schedcat/sched/__init__.py:39-46); the input are the attributes affinity of the tasks *)
Definition get_native_affinities (tasks : list (list nat)) : affinities :=
  fst (fold_left (fun st cpus => (fold_left (fun afs cpu => add_cpu afs (snd st) cpu) cpus (fst st), S (snd st))) tasks ([], O)).

(** AffinityRestrictions::get_all_cpus (apa_feas.cpp:16-26) *)
Definition get_all_cpus (afs : affinities) : affinity := fold_left (fun all af => fold_left (fun a c => set_insert c a) af all) afs [].

(** A variable: task and processor (apa_feas.cpp:30-36) *)
Definition fvar := (nat * nat)%type.
(** key_val::raw (apa_feas.cpp:30-36): the processor is the lower half on little-endian machines *)
Definition fraction_key (v : fvar) : N := (N.of_nat (snd v) + N.of_nat (fst v) * 2 ^ 32)%N.

(** one equality of add_task_service_constraints (apa_feas.cpp:134-142) *)
Definition task_service (i : nat) (af : affinity) : linexp fvar := flat_map (fun cpu => add_var (i, cpu)) af.
(** add_task_service_constraints (apa_feas.cpp:130-144), from task i on *)
Fixpoint add_task_service_constraints (i : nat) (afs : affinities) (lp : lprog fvar) : lprog fvar :=
  match afs with
  | [] => lp
  | af :: r => add_task_service_constraints (S i) r (add_equality (task_service i af) 1 lp)
  end.

(** one inequality of add_cpu_capacity_constraints (apa_feas.cpp:150-156), from task i on *)
Fixpoint cpu_capacity (i : nat) (ts : ntaskset) (cpu : nat) : linexp fvar :=
  match ts with [] => [] | t :: r => (n_util t, (i, cpu)) :: cpu_capacity (S i) r cpu end.
(** add_cpu_capacity_constraints (apa_feas.cpp:146-159) *)
Definition add_cpu_capacity_constraints (ts : ntaskset) (cpus : affinity) (lp : lprog fvar) : lprog fvar :=
  fold_left (fun lp cpu => add_inequality (cpu_capacity O ts cpu) 1 lp) cpus lp.

(** the program of APAImplicitDeadlineFeasibilityLP (apa_feas.cpp:113-116) *)
Definition apa_lp (ts : ntaskset) (afs : affinities) : lprog fvar :=
  add_cpu_capacity_constraints ts (get_all_cpus afs) (add_task_service_constraints O afs lp_empty).

(** vars after all calls of fraction(i, cpu) (apa_feas.cpp:40-48, 138, 154; varmapperbase.h:36-41) *)
Definition fvar_mapper (vs : list fvar) : varmapper := fold_left (fun m v => snd (var_for_key (fraction_key v) m)) vs [].
(** vars.fraction(i, cpu) once the variable is known (apa_feas.cpp:40-48) *)
Definition fraction (m : varmapper) (v : fvar) : nat := match position (fraction_key v) m with Some i => i | None => length m end.
(** the program over columns that linprog_solve gets (apa_feas.cpp:111-120) *)
Definition apa_columns (ts : ntaskset) (afs : affinities) : lprog nat :=
  rename (fraction (fvar_mapper (lp_vars (apa_lp ts afs)))) (apa_lp ts afs).

(** APAFeasibleSolution: allocation (apa_feas.h:46-51) *)
Definition allocation := list (list Q).
(** APAFeasibleSolution::get_fraction (apa_feas.h:55-64) *)
Definition get_fraction (al : allocation) (task_id on_cpu : nat) : Q :=
  if (length al <=? task_id)%nat then 0%Q
  else if (length (nth task_id al []) <=? on_cpu)%nat then 0%Q else nth on_cpu (nth task_id al []) 0%Q.
(** the while loops that extend a vector, then assignment (apa_feas.h:66-75) *)
Fixpoint set_grow {A} (d : A) (l : list A) (i : nat) (f : A -> A) : list A :=
  match l, i with
  | [], O => [f d]
  | [], S k => d :: set_grow d [] k f
  | x :: r, O => f x :: r
  | x :: r, S k => x :: set_grow d r k f
  end.
(** APAFeasibleSolution::set_fraction (apa_feas.h:66-75) *)
Definition set_fraction (al : allocation) (task_id on_cpu : nat) (frac : Q) : allocation :=
  set_grow [] al task_id (fun row => set_grow 0%Q row on_cpu (fun _ => frac)).

(** get_solution (apa_feas.cpp:166-182) for a given solution of the solver, from task i on *)
Fixpoint read_solution (value : fvar -> Q) (i : nat) (afs : affinities) (al : allocation) : allocation :=
  match afs with
  | [] => al
  | af :: r => read_solution value (S i) r (fold_left (fun al cpu => set_fraction al i cpu (value (i, cpu))) af al)
  end.

(** What a call can do: abort the process, return NULL, or return a solution (apa_feas.cpp:86-122, 166-182) *)
Inductive apa_result := Aborted | NoSolution | Solution (al : allocation).

(** apa_implicit_deadline_feasible (apa_feas.cpp:80-123, 166-190); [solve] is linprog_solve *)
Definition apa_implicit_deadline_feasible (solve : lprog nat -> option (nat -> Q)) (ts : ntaskset) (afs : affinities) : apa_result :=
  if negb (has_only_implicit ts) then Aborted
  else if negb (has_no_suspending ts) then Aborted
  else if negb (length ts =? length afs)%nat then Aborted
  else if has_only_feasible ts then
    match solve (apa_columns ts afs) with
    | Some x => Solution (read_solution (fun v => x (fraction (fvar_mapper (lp_vars (apa_lp ts afs))) v)) O afs [])
    | None => NoSolution
    end
  else NoSolution.
