(** Model of example/mapping.py: partition_tasks, on top of the bins with
    transactions of schedcat/mapping/rollback.py.  Utilizations are exact
    rationals.  Definitions only. *)
From Coq Require Import QArith ZArith List Bool.
From Verif Require Import Base ModelBinpack ModelRollback.
Import ListNotations.

(** A TaskSystem with the attribute cpus, and the attribute partition that all
    its tasks get (example/mapping.py:18-25) *)
Record cluster (A : Type) := Cluster { partition_no : nat; cpus : Z; tasks_of : list A }.
Arguments Cluster {A}. Arguments partition_no {A}. Arguments cpus {A}. Arguments tasks_of {A}.

(** [first_cap] (example/mapping.py:8-9), and [c.cpus] of the first cluster (lines 20-23) *)
Definition first_cap (cluster_size : Z) (dedicated_irq : bool) : Z :=
  if dedicated_irq then (cluster_size - 1)%Z else cluster_size.

(** The empty bins (example/mapping.py:10-15); [xrange(1, clusters)] is empty
    unless clusters is at least 2. *)
Definition initial_bins {A} (cluster_size clusters : Z) (dedicated_irq : bool) : list (@bin A) :=
  Bin (inject_Z (first_cap cluster_size dedicated_irq)) [] None ::
  repeat (Bin (inject_Z cluster_size) [] None) (Z.to_nat (clusters - 1)).

(** The loop that numbers the clusters (example/mapping.py:19-25) *)
Fixpoint number_from {A} (i : nat) (cluster_size : Z) (dedicated_irq : bool) (l : list (list A)) : list (cluster A) :=
  match l with
  | [] => []
  | c :: r =>
    Cluster i (if Nat.eqb i 0 && dedicated_irq then (cluster_size - 1)%Z else cluster_size) c
    :: number_from (S i) cluster_size dedicated_irq r
  end.

(** [len(c) > 0] (example/mapping.py:26) *)
Definition non_empty {A} (c : cluster A) : bool := match tasks_of c with [] => false | _ => true end.

(** partition_tasks (example/mapping.py:6-28); None stands for False.  Bins are
    plain ones, so that items keep their size; report_misfit ignores its argument. *)
Definition partition_tasks {A} (utilization : A -> Q) (cluster_size clusters : Z) (dedicated_irq : bool) (taskset : list A)
    : option (list (cluster A)) :=
  let '(s, _, _) := binpack utilization false (fun _ _ o => o) (fun x _ => x) (fun _ => true) WorstFit None (fun _ => false)
                      taskset (State (initial_bins cluster_size clusters dedicated_irq) 0%nat [] []) in
  match misfits s with
  | [] => Some (filter non_empty (number_from 0 cluster_size dedicated_irq (contents (bins s))))
  | _ :: _ => None
  end.
