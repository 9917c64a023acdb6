(** Property theorems C01-C06: task model (schedcat/model/tasks.py). *)
From Coq Require Import ZArith QArith List Permutation Sorted Lia.
From Verif Require Import Base ModelTasks SpecTasks ProofTasks.
Import ListNotations.
Open Scope Z_scope.

(** A concrete task set used by the examples. *)
Definition ex_ts : taskset := [Task 2 5 4; Task 3 7 9; Task 1 4 4].

Example ex_ts_positive : Forall pos_task ex_ts.
Proof. repeat constructor; simpl; lia. Qed.

(** C01: no legal set of job sequences demands more than dbf in any window. *)
Theorem C01_dbf_sound : forall ts seqs t0 len,
  Forall (fun t => 0 < t_period t /\ 0 < t_deadline t /\ 0 <= t_cost t) ts ->
  Forall2 (fun t js => legal (t_cost t) (t_period t) js) ts seqs ->
  zsum (map (fun p => demand (t_deadline (fst p)) t0 len (snd p)) (combine ts seqs)) <= ts_dbf ts len.
Proof. exact ts_dbf_bounds_demand. Qed.
Print Assumptions C01_dbf_sound.

Theorem C01_dbf_task_sound : forall t js t0 len,
  0 < t_period t -> 0 < t_deadline t -> 0 <= t_cost t ->
  legal (t_cost t) (t_period t) js ->
  demand (t_deadline t) t0 len js <= dbf t len.
Proof. exact dbf_bounds_demand. Qed.
Print Assumptions C01_dbf_task_sound.

Example C01_case : legal 2 5 [SJob 1 2; SJob 6 1; SJob 13 2] /\
  demand 4 1 16 [SJob 1 2; SJob 6 1; SJob 13 2] = 5 /\ dbf (Task 2 5 4) 16 = 6.
Proof. repeat split; repeat constructor; simpl; lia. Qed.

(** C01: the bound is reached, for every window start and length at once for
    all tasks. *)
Theorem C01_dbf_tight : forall ts t0 len,
  Forall (fun t => 0 < t_period t /\ 0 < t_deadline t /\ 0 <= t_cost t) ts ->
  exists seqs, Forall2 (fun t js => legal (t_cost t) (t_period t) js) ts seqs /\
  zsum (map (fun p => demand (t_deadline (fst p)) t0 len (snd p)) (combine ts seqs)) = ts_dbf ts len.
Proof. exact ts_dbf_tight. Qed.
Print Assumptions C01_dbf_tight.

Example C01_tight_case : ts_dbf ex_ts 16 = 6 + 6 + 4 /\
  Forall (fun t => 0 < t_period t /\ 0 < t_deadline t /\ 0 <= t_cost t) ex_ts.
Proof. split; [reflexivity|]. repeat constructor; simpl; lia. Qed.

(** C02 *)
Theorem C02_rbf_sound : forall ts seqs t0 len,
  Forall (fun t => 0 < t_period t /\ 0 <= t_cost t) ts ->
  Forall2 (fun t js => legal (t_cost t) (t_period t) js) ts seqs ->
  zsum (map (requested t0 len) seqs) <= ts_rbf ts len.
Proof. exact ts_rbf_bounds_requests. Qed.
Print Assumptions C02_rbf_sound.

Theorem C02_rbf_tight : forall ts t0 len,
  Forall (fun t => 0 < t_period t /\ 0 <= t_cost t) ts ->
  exists seqs, Forall2 (fun t js => legal (t_cost t) (t_period t) js) ts seqs /\
  zsum (map (requested t0 len) seqs) = ts_rbf ts len.
Proof. exact ts_rbf_tight. Qed.
Print Assumptions C02_rbf_tight.

Example C02_case : requested 1 12 [SJob 1 2; SJob 6 1; SJob 13 2] = 5 /\ rbf (Task 2 5 4) 12 = 6.
Proof. split; reflexivity. Qed.

(** C03: sorted, duplicate-free, exactly the steps of the shifted function. *)
Theorem C03_dbf_points_exact : forall fuel ts max_t offset l,
  Forall pos_task ts -> ts_dbf_points fuel ts max_t offset = Some l ->
  StronglySorted Z.lt l /\
  forall x, In x l <-> (0 <= x <= max_t /\ ts_dbf ts (x + offset) <> ts_dbf ts (x + offset - 1)).
Proof. exact ts_dbf_points_spec. Qed.
Print Assumptions C03_dbf_points_exact.

Theorem C03_dbf_points_terminates : forall ts max_t offset, Forall pos_task ts ->
  exists n, forall fuel, (n <= fuel)%nat -> exists l, ts_dbf_points fuel ts max_t offset = Some l.
Proof. exact ts_dbf_points_total. Qed.
Print Assumptions C03_dbf_points_terminates.

Theorem C03_rbf_points_exact : forall fuel ts max_t offset l,
  Forall pos_task ts -> ts_rbf_points fuel ts max_t offset = Some l ->
  StronglySorted Z.lt l /\
  forall x, In x l <-> (0 <= x <= max_t /\ ts_rbf ts (x + offset) <> ts_rbf ts (x + offset - 1)).
Proof. exact ts_rbf_points_spec. Qed.
Print Assumptions C03_rbf_points_exact.

Theorem C03_rbf_points_terminates : forall ts max_t offset, Forall pos_task ts ->
  exists n, forall fuel, (n <= fuel)%nat -> exists l, ts_rbf_points fuel ts max_t offset = Some l.
Proof. exact ts_rbf_points_total. Qed.
Print Assumptions C03_rbf_points_terminates.

Example C03_case : ts_dbf_points 50 ex_ts 16 5 = Some [3; 4; 7; 9; 11; 14; 15] /\
  ts_dbf_points 50 ex_ts 16 0 = Some [4; 8; 9; 12; 14; 16] /\
  ts_rbf_points 50 ex_ts 12 0 = Some [0; 4; 5; 7; 8; 10; 12].
Proof. repeat split. Qed.

(** Per-task iterators (the single-task methods). *)
Theorem C03_task_points_exact : forall fuel t max_t offset,
  pos_task t ->
  (forall l, dbf_points_of_change fuel t max_t offset = Some l -> StronglySorted Z.lt l /\
    forall x, In x l <-> (0 <= x <= max_t /\ dbf t (x + offset) <> dbf t (x + offset - 1))) /\
  (forall l, rbf_points_of_change fuel t max_t offset = Some l -> StronglySorted Z.lt l /\
    forall x, In x l <-> (0 <= x <= max_t /\ rbf t (x + offset) <> rbf t (x + offset - 1))).
Proof.
  exact (fun fuel t max_t offset H =>
    conj (fun l => dbf_points_spec fuel t max_t offset l (proj1 H) (proj1 (proj2 H)) (proj2 (proj2 H)))
         (fun l => rbf_points_spec fuel t max_t offset l (proj1 H) (proj2 (proj2 H)))).
Qed.
Print Assumptions C03_task_points_exact.

(** C04 *)
Theorem C04_maxjobs_sound : forall t r js t0 len,
  0 < t_period t -> 0 <= r -> 0 <= len -> completes (t_period t) r js ->
  num_pending t0 len js <= maxjobs r t len.
Proof. exact maxjobs_bounds_pending. Qed.
Print Assumptions C04_maxjobs_sound.

Theorem C04_maxjobs_tight : forall t r t0 len,
  0 < t_period t -> 0 < r -> 0 <= len ->
  exists js, completes (t_period t) r js /\ num_pending t0 len js = maxjobs r t len.
Proof. exact maxjobs_tight. Qed.
Print Assumptions C04_maxjobs_tight.

Example C04_case : completes 5 7 [CJob 0 7; CJob 5 9; CJob 11 18] /\
  num_pending 6 5 [CJob 0 7; CJob 5 9; CJob 11 18] = 3 /\ maxjobs 7 (Task 2 5 5) 5 = 3.
Proof. repeat split; repeat constructor; simpl; lia. Qed.

(** C05 *)
Theorem C05_hyperperiod_is_lcm : forall ts, ts <> [] -> Forall (fun t => 0 < t_period t) ts ->
  0 < hyperperiod ts /\ (forall t, In t ts -> (t_period t | hyperperiod ts)) /\
  (forall c, (forall t, In t ts -> (t_period t | c)) -> (hyperperiod ts | c)).
Proof. exact hyperperiod_spec. Qed.
Print Assumptions C05_hyperperiod_is_lcm.

Theorem C05_hyperperiod_order_independent : forall ts ts', ts <> [] ->
  Forall (fun t => 0 < t_period t) ts -> Permutation ts ts' -> hyperperiod ts = hyperperiod ts'.
Proof. exact hyperperiod_perm. Qed.
Print Assumptions C05_hyperperiod_order_independent.

Example C05_case : hyperperiod ex_ts = 140 /\ Forall (fun t => 0 < t_period t) ex_ts.
Proof. split; [reflexivity|]. repeat constructor. Qed.

(** C06 *)
Theorem C06_topsum_is_maximum : forall A (lst : list A) f n,
  (forall sel, selection (map f lst) sel (Nat.min n (length lst)) -> (total sel <= topsum lst f n)%Q) /\
  (exists sel, selection (map f lst) sel (Nat.min n (length lst)) /\ total sel = topsum lst f n).
Proof.
  exact (fun A lst f n => conj (fun sel => topsum_upper A lst f n sel) (topsum_attained A lst f n)).
Qed.
Print Assumptions C06_topsum_is_maximum.

Theorem C06_topsum_at_most : forall A (lst : list A) f n k sel,
  (forall x, In x lst -> (0 <= f x)%Q) -> (k <= n)%nat ->
  selection (map f lst) sel k -> (total sel <= topsum lst f n)%Q.
Proof. exact topsum_upper_le. Qed.
Print Assumptions C06_topsum_at_most.

Theorem C06_heaviest_is_maximum : forall ts n,
  (forall sel, selection (map utilization ts) sel (Nat.min n (length ts)) ->
     (total sel <= ts_utilization ts (Some n))%Q) /\
  (exists sel, selection (map utilization ts) sel (Nat.min n (length ts)) /\
     total sel = ts_utilization ts (Some n)).
Proof.
  exact (fun ts n => conj (fun sel => topsum_upper task ts utilization n sel)
                          (topsum_attained task ts utilization n)).
Qed.
Print Assumptions C06_heaviest_is_maximum.

Example C06_case : topsum [1; 5; 3; 4]%Z inject_Z 2 = 9%Q /\
  selection (map inject_Z [1; 5; 3; 4]) [5; 3]%Q 2.
Proof.
  split; [reflexivity|]. split; [reflexivity|]. exists [1; 4]%Q.
  simpl. apply Permutation_sym. apply (Permutation_cons_app [inject_Z 5; inject_Z 3] [4%Q] (inject_Z 1)).
  apply Permutation_refl.
Qed.
