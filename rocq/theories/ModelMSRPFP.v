(** Model of apply_msrp_bounds in schedcat/locking/bounds.py: the classic MSRP
    bounds as they enter fixed-priority response-time analysis.  Definitions only. *)
From Coq Require Import NArith ZArith List.
From Verif Require Import ModelTasks ModelFP ModelLocking ModelMSRP.
Import ListNotations.

(** assign_fp_preemption_levels (bounds.py:30-33): the levels, in the order of the tasks *)
Definition assign_fp_preemption_levels (n : nat) : list N := map N.of_nat (seq 0 n).

(** The attributes of task [t] after apply_msrp_bounds (bounds.py:415-426;
    sharedres_types.h:492-515).  The native model is [info], every task has a partition. *)
Definition msrp_task (info : list taskinfo) (num_cpus : nat) (t : taskinfo) : fptask :=
  let b := nth (ti_id t) (msrp_bounds info num_cpus) (BB inter0 inter0 inter0 inter0 inter0) in
  FPTask (Task (Z.of_N (ti_cost t) + Z.of_N (i_len (bb_remote b))) (Z.of_N (ti_period t)) (Z.of_N (ti_deadline t)))
    (Some (Z.of_N (i_len (bb_local b)))) None None None.
