(** Property theorems C58: the C++ LOAD test for global EDF, and the combined C++
    test with all of its parts. *)
From Coq Require Import ZArith QArith Qround List Bool Lia Lqa.
From Verif Require Import Base ModelTasks SpecTasks ProofTasks SpecUni SpecQPA SpecGlobal ProofUni ProofEDF ProofGlobal ModelNative ModelGEDF ModelGEDFNative
  ProofGEDF ProofGEDFNative ProofBAK ModelLA ProofLA ProofNB ModelSim PropSim ModelFFDBF ModelFFDBFNative ProofFFDBFNative ModelLoad ProofLoad PropGEDF PropGEDFAccept PropLA PropFFDBFNative.
Import ListNotations.
Open Scope Z_scope.

(** demand of a set by time x: cost times the number of jobs due *)
Definition demand (ts : ntaskset) (x : Z) : Z := Base.zsum (map (fun e => e_cost e * jobs_due e x) (map en ts)).

Lemma demand_total : forall ts x, Forall nb_ok ts -> demand ts x = total_demand ts x.
Proof.
  intros ts x Hok. unfold demand, total_demand. rewrite map_map. f_equal. apply map_ext. intros t. unfold jobs_due, bound_demand, en; cbn [e_cost e_deadline e_period].
  destruct (Z.ltb_spec x (n_deadline t)); destruct (Z.ltb_spec (x - n_deadline t) 0); lia.
Qed.

(** The computed load is an upper bound on demand / time for every time, whatever
    values k_for_epsilon returns (so also when its [double] is rounded). *)
Theorem C58_load_bound : forall ts ks eps x, Forall nb_ok ts -> Forall (fun k => 0 <= k) ks -> length ks = length ts -> (0 <= eps)%Q -> 0 < x ->
  (inject_Z (demand ts x) <= approx_load_k ts ks eps * inject_Z x)%Q.
Proof. intros ts ks eps x Hok Hks Hlen He Hx. rewrite demand_total by assumption. apply approx_load_bounds; assumption. Qed.
Print Assumptions C58_load_bound.

(** It is within epsilon of the true load. *)
Theorem C58_load_accurate : forall ts eps r, Forall nb_ok ts -> (0 < eps)%Q -> (forall x, 0 < x -> (inject_Z (demand ts x) <= r * inject_Z x)%Q) ->
  (approx_load ts eps <= r + eps)%Q.
Proof. intros ts eps r Hok He H. apply approx_load_accurate; [assumption..|]. intros x Hx. rewrite <- demand_total by assumption. auto. Qed.
Print Assumptions C58_load_accurate.

Lemma approx_bound : forall ts eps x, Forall nb_ok ts -> (0 <= eps)%Q -> 0 < x -> (inject_Z (total_demand ts x) <= approx_load ts eps * inject_Z x)%Q.
Proof.
  intros ts eps x Hok He Hx. apply approx_load_bounds; [assumption| |apply map_length|assumption|assumption].
  rewrite Forall_map. apply Forall_forall. intros t _. unfold k_for_epsilon. lia.
Qed.

Lemma load_core : forall eps (m : nat) ts, (0 <= eps)%Q -> (1 <= m)%nat -> Forall nb_ok ts -> n_load eps (Z.of_nat m) ts false = true -> gedf_schedulable (map en ts) m.
Proof.
  intros eps m ts He Hm Hok H. unfold n_load in H. cbn [andb] in H. apply Qle_bool_iff in H.
  apply (load_sound m ts (approx_load ts eps) Hok Hm); [|assumption]. intros L HL. apply approx_bound; assumption.
Qed.

(** A set with constrained deadlines that passes the test meets all deadlines in every
    global EDF schedule, on any number of processors. *)
Theorem C58_safe : forall eps (m : nat) ts, (0 <= eps)%Q -> Forall (fun t => 0 <= n_susp t) ts -> Forall (fun t => n_deadline t <= n_period t) ts ->
  n_load eps (Z.of_nat m) ts true = true -> gedf_schedulable (map en ts) m.
Proof.
  intros eps m ts He Hsu Hc H. unfold n_load in H. cbn [andb] in H.
  destruct (has_only_feasible ts && is_not_overutilized ts (Z.of_nat m) && has_no_suspending ts) eqn:P; [|discriminate]. cbn [negb] in H.
  rewrite !andb_true_iff in P. destruct P as [[P1 P2] P3].
  assert (Hok : Forall nb_ok ts).
  { apply (nb_ok_check (Z.of_nat m)); [assumption|]. unfold preconditions. rewrite P1, P2, P3, andb_true_r. cbn [andb]. unfold has_only_constrained. apply forallb_forall.
    intros t Ht. rewrite Forall_forall in Hc. apply Z.leb_le. auto. }
  destruct m as [|m].
  - destruct ts as [|t ts]; [intros s sc _ _ _ j e Hj; cbn in Hj; destruct (fst j); discriminate|exfalso].
    unfold is_not_overutilized in P2. apply Qle_bool_iff in P2. change (inject_Z (Z.of_nat 0)) with 0%Q in P2. unfold ns_util in P2. rewrite fold_qsum, Qplus_0_l in P2.
    inversion Hok as [|? ? Ht Hr]; subst. cbn [map qsum fold_right] in P2. fold (qsum (map n_util ts)) in P2.
    pose proof (ns_util_nonneg ts Hr) as U. unfold ns_util in U. rewrite fold_qsum, Qplus_0_l in U. destruct Ht as [T1 [T2 T3]].
    assert (0 < n_util t)%Q by (unfold n_util, frac; apply Qlt_shift_div_l; [apply zq_pos; lia|rewrite Qmult_0_l; apply zq_pos; lia]). lra.
  - apply (load_core eps); [assumption|lia|assumption|]. unfold n_load. cbn [andb]. exact H.
Qed.
Print Assumptions C58_safe.

(** Beyond constrained deadlines the claim in gedf.cpp:56 ("can handle arbitrary
    deadlines") is false: with one task due after its period and one due before, the
    load is underestimated.  One processor, and two. *)
Definition bad_load1 : taskset := [Task 9 10 12; Task 15 1000 102].
Definition bad_load2 : taskset := [Task 19 50 100; Task 19 50 100; Task 19 50 100; Task 19 50 100; Task 60 3000 300; Task 60 3000 300; Task 60 3000 300; Task 60 3000 300].

Theorem C58_arbitrary_deadlines_unsafe :
  (Forall wf_task bad_load1 /\ Forall feasible bad_load1 /\ n_load (1 # 10) 1 (get_native_taskset bad_load1) true = true /\ ~ gedf_schedulable (map e_of bad_load1) 1) /\
  (Forall wf_task bad_load2 /\ Forall feasible bad_load2 /\ n_load (1 # 10) 2 (get_native_taskset bad_load2) true = true /\ ~ gedf_schedulable (map e_of bad_load2) 2).
Proof.
  split; (split; [unfold bad_load1, bad_load2; all_lia|]; split; [unfold bad_load1, bad_load2; all_lia|]; split; [vm_compute; reflexivity|]).
  - apply (C36_refutes 200 (fun n => n) 1 bad_load1 110); [split; [lia|]; split; [discriminate|]; unfold bad_load1; repeat constructor; cbn; lia|lia|vm_compute; reflexivity].
  - apply (C36_refutes 400 (fun n => n) 2 bad_load2 310); [split; [lia|]; split; [discriminate|]; unfold bad_load2; repeat constructor; cbn; lia|lia|vm_compute; reflexivity].
Qed.
Print Assumptions C58_arbitrary_deadlines_unsafe.

(** there the load is below the demand: 90 + 15 of work is due by 102 *)
Theorem C58_load_underestimated : exists ts x, 0 < x /\ has_only_feasible ts = true /\ ~ (inject_Z (demand ts x) <= approx_load ts (1 # 10) * inject_Z x)%Q.
Proof.
  exists (get_native_taskset bad_load1), 102. split; [lia|]. split; [reflexivity|]. intros H. apply Qle_bool_iff in H. vm_compute in H. discriminate.
Qed.
Print Assumptions C58_load_underestimated.

(** The combined C++ test, every part included, is safe for constrained deadlines and
    two or more processors. *)
Theorem C58_combined_safe : forall fuel ffuel bfuel lfuel pf sf qf bslow lslow (m : nat) ts step wb wr wf wl wla,
  (2 <= m)%nat -> Forall wf_task ts -> Forall constrained ts -> Forall (fun t => t_period t < 2 ^ 64) ts -> (1 <= fuel)%nat ->
  n_gedf_all fuel ffuel bfuel lfuel pf sf qf bslow lslow (Z.of_nat m) step wb wr wf wl wla (get_native_taskset ts) = Some true ->
  gedf_schedulable (map e_of ts) m.
Proof.
  intros fuel ffuel bfuel lfuel pf sf qf bslow lslow m ts step wb wr wf wl wla Hm Hw Hc H64 Hfu H.
  assert (Een : map en (map nt ts) = map e_of ts) by (rewrite map_map; reflexivity).
  assert (Hok : Forall nb_ok (map nt ts)).
  { unfold n_gedf_all, n_gedf_full, n_gedf in H. rewrite native_map in H by assumption. cbn [andb] in H.
    destruct (has_only_feasible (map nt ts)) eqn:F1; [|discriminate]. apply nb_ok_pre; [|assumption]. apply feasible_iff. assumption. }
  unfold n_gedf_all in H. revert H. apply C56_combined_safe; try assumption.
  - intros _ H. rewrite native_map in H by assumption. destruct (n_ffdbf pf sf qf 10 50 (Z.of_nat m) (map nt ts) false) as [[|]|] eqn:E; try discriminate.
    rewrite <- Een. apply (nf_sound pf sf qf 10 50); assumption.
  - intros _ H. rewrite native_map in H by assumption. rewrite <- Een. apply (load_core (100 # 1000)); [discriminate|lia|assumption|exact H].
Qed.
Print Assumptions C58_combined_safe.

(** a set that needs the test points (density above utilization), accepted by the LOAD
    test and through it by the combined test; a set above the bound *)
Definition ex_load : taskset := [Task 1 10 4; Task 1 10 4; Task 2 20 8; Task 2 20 8; Task 1 12 6; Task 1 12 6].
Definition ex_load_hi : taskset := [Task 3 10 4; Task 3 10 4; Task 6 20 8].
Example C58_case : native_pre 2 ex_load /\ n_load (1 # 10) 2 (get_native_taskset ex_load) true = true /\
  n_load (1 # 10) 2 (get_native_taskset ex_load_hi) true = false /\
  (approx_load (get_native_taskset ex_load) (1 # 10) < ns_density (get_native_taskset ex_load))%Q.
Proof. split; [unfold native_pre, ex_load; split; [all_lia|split; [all_lia|discriminate]]|]. repeat split; vm_compute; reflexivity. Qed.

(** the combined test with all parts switched on *)
Example C58_combined_case : Forall constrained ex_load /\
  n_gedf_all 30 60 100 100 60 60 60 (fun _ => false) (fun _ _ _ => false) 2 1 true true true true true (get_native_taskset ex_load) = Some true.
Proof. split; [unfold ex_load; all_lia|vm_compute; reflexivity]. Qed.
