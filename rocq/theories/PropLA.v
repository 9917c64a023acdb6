(** Property theorems C55 (the C++ test of Liu and Anderson) and C56 (the C++ version
    of Baruah's test and the combined C++ test for global EDF). *)
From Coq Require Import ZArith QArith List Bool Lia Lqa.
From Verif Require Import Base ModelTasks SpecTasks ProofTasks SpecUni SpecQPA SpecGlobal SpecSusp ProofUni ProofEDF ProofGlobal ModelNative ModelGEDF ModelGEDFNative
  ProofGEDF ProofGEDFRta ProofGFB ProofGEDFNative ProofBAK ModelBAR ProofBARTop ModelLA ProofLAPoints ProofLA ProofNB ModelSim PropSim PropGEDF PropGEDFAccept.
Import ListNotations.
Open Scope Z_scope.

(** ** C55: Liu and Anderson's test *)

(** constrained deadlines, no tardiness threshold *)
Definition la_input (t : ntask) : Prop := 0 <= n_susp t /\ n_tardiness t = 0 /\ n_deadline t <= n_period t.

Lemma feasible_n : forall ts, has_only_feasible ts = true -> Forall (fun t => n_wcet t + n_susp t <= n_deadline t /\ n_wcet t + n_susp t <= n_period t /\ 0 < n_wcet t) ts.
Proof.
  intros ts H. unfold has_only_feasible in H. rewrite forallb_forall in H. apply Forall_forall. intros t Ht. specialize (H t Ht). unfold n_feasible in H.
  rewrite !andb_true_iff, !Z.leb_le, Z.ltb_lt in H. lia.
Qed.

(** An accepted task set meets all deadlines in every global EDF schedule, whenever
    and for however long (up to the declared bound) the jobs suspend themselves.
    [slow] is the time limit: any answer of it. *)
Theorem C55_safe : forall fuel slow (m : nat) ts, Forall la_input ts -> n_la fuel slow (Z.of_nat m) ts true = Some true ->
  sgedf_schedulable (map en ts) (susp_of ts) m.
Proof.
  intros fuel slow m ts Hi H. unfold n_la in H. cbn [andb] in H.
  destruct (has_only_feasible ts && is_not_overutilized ts (Z.of_nat m)) eqn:P; [|discriminate]. cbn [negb] in H.
  apply andb_true_iff in P. destruct P as [P _]. apply feasible_n in P.
  destruct (Nat.eqb_spec (length ts) 0) as [L|L].
  - destruct ts; [|discriminate]. intros s sc tot su _ _ _ _ j e He. cbn in He. destruct (fst j); discriminate.
  - apply (la_core fuel slow); [|exact H]. apply Forall_forall. intros t Ht. rewrite Forall_forall in Hi, P. specialize (Hi t Ht). specialize (P t Ht). unfold la_input, la_task in *. lia.
Qed.
Print Assumptions C55_safe.

Lemma susp_free : forall ts S m, sgedf_schedulable ts S m -> (forall i, (i < length ts)%nat -> 0 <= S i) -> gedf_schedulable ts m.
Proof.
  intros ts S m H HS s sc Hl Hv Hp j e He.
  assert (Z0 : forall k t, suspended_time (fun _ _ => false) k t = 0) by (intros k t; unfold suspended_time; induction t as [|t IHt]; [reflexivity|]; cbn [sumf]; rewrite IHt; reflexivity).
  destruct (H s sc (fun _ _ => 0%nat) (fun _ _ => false) Hl Hv) with (j := j) (e := e) as [q [Q1 [Q2 _]]].
  - intros k Hk. split; [cbn; apply HS; assumption|]. intros t. rewrite Z0. split; [lia|]. split; [discriminate|]. intros; lia.
  - intros t k Hk Hr _ Hin. apply Hp; assumption.
  - assumption.
  - exists q. split; assumption.
Qed.

(** without suspensions: ordinary global EDF *)
Theorem C55_without_suspensions_safe : forall fuel slow (m : nat) ts, Forall la_input ts -> n_la fuel slow (Z.of_nat m) ts true = Some true ->
  gedf_schedulable (map en ts) m.
Proof.
  intros fuel slow m ts Hi H. eapply susp_free; [eapply C55_safe; eassumption|]. intros i Hl. rewrite map_length in Hl. unfold susp_of.
  rewrite Forall_forall in Hi. apply (Hi (nth i ts dnt)). apply nth_In. assumption.
Qed.
Print Assumptions C55_without_suspensions_safe.

(** A job suspends for 2 units; the two other tasks are not suspending. *)
Definition ex_la : ntaskset := [NTask 1 6 6 0 2 0; NTask 2 8 7 0 0 0; NTask 3 9 9 0 0 0].
Definition never : nat -> Z -> nat -> bool := fun _ _ _ => false.
Example C55_case : Forall la_input ex_la /\ n_la 100 never 2 ex_la true = Some true /\
  n_la 100 never 2 [NTask 1 6 6 0 5 0; NTask 2 8 7 0 0 0; NTask 3 9 9 0 0 0] true = Some false.
Proof. split; [unfold ex_la; repeat constructor; cbn; lia|]. split; vm_compute; reflexivity. Qed.

(** infeasible or over-utilized sets are rejected *)
Theorem C55_rejects : forall fuel slow m ts, Exists (fun t => n_deadline t < n_wcet t + n_susp t \/ n_period t < n_wcet t + n_susp t \/ n_wcet t <= 0) ts ->
  n_la fuel slow m ts true = Some false.
Proof.
  intros fuel slow m ts H. unfold n_la. destruct (has_only_feasible ts) eqn:P; [|reflexivity]. exfalso. apply feasible_n in P. rewrite Forall_forall in P.
  apply Exists_exists in H. destruct H as [t [Ht X]]. specialize (P t Ht). lia.
Qed.
Print Assumptions C55_rejects.

(** the time limit only turns acceptance into rejection *)
Lemma la_points_cutoff : forall fuel slow check iter p, la_points fuel slow check iter p = Some true -> la_points fuel (fun _ => false) check iter p = Some true.
Proof.
  induction fuel as [|f IH]; intros slow check iter p H; [discriminate|]. cbn [la_points] in *. destruct (get_next p) as [[[a|] p']|]; [|assumption|discriminate].
  rewrite andb_false_r. destruct (_ && slow _); [discriminate|]. destruct (check a); [|discriminate]. eapply IH. exact H.
Qed.
Theorem C55_time_limit : forall fuel slow m ts check, n_la fuel slow m ts check = Some true -> n_la fuel never m ts check = Some true.
Proof.
  intros fuel slow m ts check H. unfold n_la in *. destruct (_ && negb _); [discriminate|]. destruct (_ && Nat.eqb _ _); [reflexivity|]. destruct (Qle_bool _ 0); [discriminate|].
  revert H. generalize (flat_map (fun p => map (fun x => (p, x)) (la_suspensions (snd p))) (indexed ts)). induction l as [|[[i t] x] l IH]; intros H; [reflexivity|]. cbn [la_loop] in *.
  destruct (la_suspension fuel (slow i x) m ts i t x) as [[|]|] eqn:E; try discriminate. unfold never. unfold la_suspension in *. rewrite (la_points_cutoff _ _ _ _ _ E). apply IH. assumption.
Qed.
Print Assumptions C55_time_limit.

(** the test ends *)
Theorem C55_terminates : forall m ts check, Forall (fun t => 0 < n_period t) ts -> exists N, forall fuel slow, (N <= fuel)%nat -> n_la fuel slow m ts check <> None.
Proof.
  intros m ts check Hp.
  assert (G : forall l, exists N, forall fuel slow, (N <= fuel)%nat -> (ts = [] -> l = []) -> la_loop fuel slow m ts l <> None).
  { induction l as [|[[i t] x] l [N IH]]; [exists 0%nat; discriminate|].
    exists (N + S (Z.to_nat (la_max_point m ts t x - -1)))%nat. intros fuel slow Hf Hne. cbn [la_loop].
    assert (Q : la_suspension fuel (slow i x) m ts i t x <> None).
    { unfold la_suspension. apply la_points_fuel; [|cbn [points_init p_bound p_last]; lia]. apply points_init_ok; [|assumption]. intros E. specialize (Hne E). discriminate. }
    destruct (la_suspension fuel (slow i x) m ts i t x) as [[|]|]; [|discriminate|congruence]. apply IH; [lia|]. intros E. specialize (Hne E). discriminate. }
  destruct (G (flat_map (fun p => map (fun x => (p, x)) (la_suspensions (snd p))) (indexed ts))) as [N HN].
  exists N. intros fuel slow Hf. unfold n_la. destruct (_ && negb _); [discriminate|]. destruct (_ && Nat.eqb _ _); [discriminate|]. destruct (Qle_bool _ 0); [discriminate|].
  apply HN; [assumption|]. intros ->. reflexivity.
Qed.
Print Assumptions C55_terminates.

(** For deadlines beyond the period the test is not safe: it accepts a set that
    misses a deadline even when all tasks are released together and periodically. *)
Definition bad_la : taskset := [Task 2 6 4; Task 2 6 5; Task 6 6 18].
Lemma bad_la_misses : ~ gedf_schedulable (map e_of bad_la) 2.
Proof.
  apply (C36_refutes 100 (fun n => n) 2 bad_la 60).
  - split; [lia|]. split; [discriminate|]. unfold bad_la. repeat constructor; cbn; lia.
  - lia.
  - vm_compute. reflexivity.
Qed.
Theorem C55_arbitrary_deadlines_unsafe : exists (m : nat) ts, (2 <= m)%nat /\ Forall wf_task ts /\ Forall feasible ts /\
  n_la 100 never (Z.of_nat m) (get_native_taskset ts) true = Some true /\ ~ gedf_schedulable (map e_of ts) m.
Proof.
  exists 2%nat, bad_la. split; [lia|]. split; [unfold bad_la; all_lia|]. split; [unfold bad_la; all_lia|]. split; [vm_compute; reflexivity|]. apply bad_la_misses.
Qed.
Print Assumptions C55_arbitrary_deadlines_unsafe.

(** ** C56: Baruah's test in C++ *)
Lemma nb_ok_pre : forall ts, Forall pre_task ts -> Forall constrained ts -> Forall nb_ok (map nt ts).
Proof.
  intros ts H1 H2. rewrite Forall_map. apply Forall_forall. intros t Ht. rewrite Forall_forall in H1, H2. specialize (H1 t Ht). specialize (H2 t Ht).
  unfold pre_task, constrained, nb_ok in *. cbn. lia.
Qed.
Lemma back_nt : forall ts, map back (map nt ts) = ts.
Proof. intros ts. rewrite map_map. rewrite <- (map_id ts) at 2. apply map_ext. intros []; reflexivity. Qed.

(** It agrees with the Python version when the time limit is not reached. *)
Theorem C56_agree : forall fuel fuel' m ts b b', 1 <= m -> native_pre m ts ->
  n_baruah fuel (fun _ => false) m (get_native_taskset ts) true = Some b -> bar_test fuel' m ts = Some b' -> b = b'.
Proof.
  intros fuel fuel' m ts b b' Hm [P1 [P2 P3]] H H'.
  assert (Hw : Forall wf_task ts) by (eapply Forall_impl; [|exact P1]; unfold pre_task, wf_task; intros; lia).
  rewrite native_map in H by assumption. pose proof (nb_ok_pre ts P1 P2) as Hok.
  assert (Pre : preconditions m (map nt ts) = true) by (apply pre_iff; auto).
  rewrite <- (back_nt ts) in H'. pose proof (bar_test_cond _ _ _ _ Hm Hok H') as C.
  unfold n_baruah in H. rewrite Pre in H. cbn [andb negb] in H. destruct (Nat.eqb_spec (length (map nt ts)) 0) as [L|L].
  - destruct ts; [|discriminate]. injection H as <-. symmetry. apply C. split; [change (inject_Z 0 < inject_Z m)%Q; rewrite <- Zlt_Qlt; lia|]. intros k tk a Hk. destruct k; discriminate.
  - assert (H2 : n_baruah fuel (fun _ => false) m (map nt ts) false = Some b) by (unfold n_baruah; cbn [andb]; exact H).
    destruct b.
    + symmetry. apply C. eapply nb_cond_true; eassumption.
    + destruct b'; [|reflexivity]. exfalso. eapply nb_cond_false; [exact Hok|exact H2|]. apply C. reflexivity.
Qed.
Print Assumptions C56_agree.

(** Acceptance is safe, whatever the time limit does. *)
Lemma nb_sound : forall fuel slow (m : nat) ts, (1 <= m)%nat -> Forall nb_ok ts -> n_baruah fuel slow (Z.of_nat m) ts false = Some true -> gedf_schedulable (map en ts) m.
Proof.
  intros fuel slow m ts Hm Hok H. assert (Hm' : 1 <= Z.of_nat m) by lia. pose proof (nb_cond_true _ _ _ _ Hm' Hok H) as C.
  assert (Hok' := Hok). rewrite Forall_forall in Hok'.
  assert (Hw : Forall wf_task (map back ts)) by (rewrite Forall_map; apply Forall_forall; intros t Ht; destruct (Hok' t Ht) as [? [? ?]]; unfold wf_task; cbn; lia).
  assert (Hc : Forall constrained (map back ts)) by (rewrite Forall_map; apply Forall_forall; intros t Ht; destruct (Hok' t Ht) as [? [? ?]]; unfold constrained; cbn; lia).
  assert (Hf : Forall feasible (map back ts)) by (rewrite Forall_map; apply Forall_forall; intros t Ht; destruct (Hok' t Ht) as [? [? ?]]; unfold feasible; cbn; lia).
  destruct (bar_terminates (Z.of_nat m) (map back ts) Hw) as [N HN]. specialize (HN N (le_n N)). destruct (bar_test N (Z.of_nat m) (map back ts)) as [b|] eqn:E; [|congruence].
  assert (b = true) by (apply (bar_test_cond _ _ _ _ Hm' Hok E); assumption). subst b.
  pose proof (bar_sound N m (map back ts) Hm Hw Hc Hf E) as S. rewrite map_map in S. exact S.
Qed.
Theorem C56_safe : forall fuel slow (m : nat) ts, (1 <= m)%nat -> Forall (fun t => 0 <= n_susp t) ts -> n_baruah fuel slow (Z.of_nat m) ts true = Some true -> gedf_schedulable (map en ts) m.
Proof.
  intros fuel slow m ts Hm Hsu H. unfold n_baruah in H. cbn [andb] in H. destruct (preconditions (Z.of_nat m) ts) eqn:P; [|discriminate]. cbn [negb] in H.
  destruct (Nat.eqb_spec (length ts) 0) as [L|L].
  - destruct ts; [|discriminate]. intros s sc _ _ _ j e He. cbn in He. destruct (fst j); discriminate.
  - apply (nb_sound fuel slow); [assumption| |unfold n_baruah; cbn [andb]; exact H]. unfold preconditions in P. rewrite !andb_true_iff in P. destruct P as [[[P1 _] P3] P4].
    apply feasible_n in P1. unfold has_only_constrained in P3. unfold has_no_suspending in P4. rewrite forallb_forall in P3, P4. apply Forall_forall. intros t Ht.
    rewrite Forall_forall in P1, Hsu. specialize (P1 t Ht). specialize (P3 t Ht). specialize (P4 t Ht). specialize (Hsu t Ht). unfold n_constrained in P3. unfold nb_ok.
    apply Z.leb_le in P3. unfold n_suspending in P4. apply negb_true_iff, Z.ltb_ge in P4. lia.
Qed.
Print Assumptions C56_safe.

Theorem C56_terminates : forall m ts, Forall nb_ok ts -> exists N, forall fuel slow check, (N <= fuel)%nat -> n_baruah fuel slow m ts check <> None.
Proof.
  intros m ts H. destruct (nb_fuel m ts H) as [N HN]. exists N. intros fuel slow check Hf. unfold n_baruah. destruct (_ && negb _); [discriminate|]. destruct (_ && Nat.eqb _ _); [discriminate|].
  apply (HN fuel slow Hf).
Qed.
Print Assumptions C56_terminates.

Example C56_case : native_pre 2 ex_bar /\ n_baruah 100 (fun _ => false) 2 (get_native_taskset ex_bar) true = Some true /\
  n_baruah 100 (fun n => Nat.leb 10 n) 2 (get_native_taskset ex_bar) true = Some false /\
  n_baruah 100 (fun _ => false) 2 (get_native_taskset [Task 2 3 3; Task 2 3 3; Task 2 4 3]) true = Some false.
Proof. split; [unfold native_pre, ex_bar; split; [all_lia|split; [all_lia|discriminate]]|]. repeat split; vm_compute; reflexivity. Qed.

(** ** The combined test *)

(** For constrained deadlines an acceptance is justified by one of the tests;
    FF-DBF and the load test are parameters, assumed safe when they are switched on. *)
Theorem C56_combined_safe : forall fuel ffuel bfuel lfuel bslow lslow (m : nat) ts step wb wr wf wl wla ffdbf load,
  (2 <= m)%nat -> Forall wf_task ts -> Forall constrained ts -> Forall (fun t => t_period t < 2 ^ 64) ts -> (1 <= fuel)%nat ->
  (wf = true -> ffdbf (get_native_taskset ts) = true -> gedf_schedulable (map e_of ts) m) ->
  (wl = true -> load (get_native_taskset ts) = true -> gedf_schedulable (map e_of ts) m) ->
  n_gedf_full fuel ffuel bfuel lfuel bslow lslow (Z.of_nat m) step wb wr wf wl wla ffdbf load (get_native_taskset ts) = Some true ->
  gedf_schedulable (map e_of ts) m.
Proof.
  intros fuel ffuel bfuel lfuel bslow lslow m ts step wb wr wf wl wla ffdbf load Hm Hw Hc H64 Hfu Hff Hld H.
  assert (Een : map en (map nt ts) = map e_of ts) by (rewrite map_map; reflexivity).
  rewrite native_map in * by assumption. unfold n_gedf_full, n_gedf in H. cbn [andb] in H.
  destruct (has_only_feasible (map nt ts)) eqn:F1; [|discriminate]. destruct (is_not_overutilized (map nt ts) (Z.of_nat m)) eqn:F2; [|discriminate]. cbn [andb negb] in H.
  pose proof (proj1 (feasible_iff ts) F1) as P1. pose proof (proj2 (constrained_iff ts) Hc) as F3.
  destruct (Nat.eqb_spec (length (map nt ts)) 0) as [L|L].
  { destruct ts; [|discriminate]. intros s sc _ _ _ j e He. cbn in He. destruct (fst j); discriminate. }
  rewrite no_susp in H. cbn [negb] in H. destruct (Z.eqb_spec (Z.of_nat m) 1) as [|_]; [lia|]. cbn [andb] in H.
  assert (Pre : preconditions (Z.of_nat m) (map nt ts) = true) by (unfold preconditions; rewrite F1, F2, F3, no_susp; reflexivity).
  assert (Hp : native_pre (Z.of_nat m) ts) by (apply pre_iff; assumption).
  pose proof (bak_agree' _ ts Hp H64) as A1. pose proof (gfb_agree' _ ts Hp) as A2. pose proof (rta_agree' fuel ffuel (Z.of_nat m) ts 25 step ltac:(lia) ltac:(lia) Hp Hfu) as A3.
  rewrite native_map in A1, A2, A3 by assumption. unfold n_bak, n_gfb, n_rta in A1, A2, A3. unfold n_bak, n_gfb, n_rta in H.
  unfold preconditions in A2. rewrite F1, F2, F3, no_susp in *. cbn [andb negb] in *. rewrite (proj2 (Nat.eqb_neq _ _) L) in A3. rewrite A1, A2, A3 in H.
  assert (Hfe : Forall feasible ts) by (apply feas_of_pre; assumption).
  destruct (bak_test (Z.of_nat m) ts) eqn:B1; [apply bak_sound; [lia|assumption..]|].
  destruct (gfb_test (Z.of_nat m) ts) eqn:B2; [apply gfb_sound; [lia|assumption..]|].
  assert (Hrta : forall sl, rta_test fuel ffuel (Z.of_nat m) ts 25 step = Some (true, sl) -> gedf_schedulable (map e_of ts) m).
  { intros sl R. destruct (rta_sound fuel ffuel m ts 25 step sl ltac:(lia) Hw Hc Hfe R) as [[Ls I] S].
    intros s sc Hl Hv Hp' j e He. assert (Hj : (fst j < length ts)%nat) by (apply nth_error_Some_lt in He; rewrite map_length in He; assumption).
    apply responds_le with (a := t_deadline (nth (fst j) ts dt) - nth (fst j) sl 0); [|apply S; assumption].
    specialize (I (fst j) Hj). rewrite (map_nth_error e_of _ _ (nth_error_nth' ts dt Hj)) in He. injection He as <-. cbn. lia. }
  assert (Hla : accepted (n_la lfuel lslow (Z.of_nat m) (map nt ts) false) = true -> gedf_schedulable (map e_of ts) m).
  { intros E. destruct (n_la lfuel lslow (Z.of_nat m) (map nt ts) false) as [b|] eqn:E'; [|discriminate]. cbn in E. subst b.
    rewrite <- Een. apply susp_free with (susp_of (map nt ts)).
    - apply (la_core lfuel lslow); [|exact E']. rewrite Forall_map. apply Forall_forall. intros t Ht. rewrite Forall_forall in P1, Hc. specialize (P1 t Ht). specialize (Hc t Ht).
      unfold la_task, pre_task, constrained in *. cbn. lia.
    - intros i Hi. rewrite map_length in Hi. unfold susp_of. rewrite (nth_indep _ dnt (nt dt)) by assumption. rewrite map_nth. cbn. lia. }
  assert (Hnb : accepted (n_baruah bfuel bslow (Z.of_nat m) (map nt ts) false) = true -> gedf_schedulable (map e_of ts) m).
  { intros E. destruct (n_baruah bfuel bslow (Z.of_nat m) (map nt ts) false) as [b|] eqn:E'; [|discriminate]. cbn in E. subst b.
    rewrite <- Een. apply (nb_sound bfuel bslow); [lia|apply nb_ok_pre; assumption|exact E']. }
  assert (Hfin : Some ((wla && accepted (n_la lfuel lslow (Z.of_nat m) (map nt ts) false)) || (wl && load (map nt ts))) = Some true -> gedf_schedulable (map e_of ts) m).
  { intros E. injection E as E. apply orb_true_iff in E. rewrite !andb_true_iff in E. destruct E as [[_ E]|[E1 E2]]; [apply Hla; assumption|apply Hld; assumption]. }
  assert (Hmid : match Some ((wb && accepted (n_baruah bfuel bslow (Z.of_nat m) (map nt ts) false)) || (wf && ffdbf (map nt ts))) with
    | None => None | Some true => Some true | Some false => Some ((wla && accepted (n_la lfuel lslow (Z.of_nat m) (map nt ts) false)) || (wl && load (map nt ts))) end = Some true -> gedf_schedulable (map e_of ts) m).
  { intros E. destruct ((wb && _) || _) eqn:B; [|apply Hfin; exact E]. apply orb_true_iff in B. rewrite !andb_true_iff in B. destruct B as [[_ B]|[B3 B4]]; [apply Hnb; assumption|apply Hff; assumption]. }
  destruct wr; [|apply Hmid; exact H]. destruct (rta_test fuel ffuel (Z.of_nat m) ts 25 step) as [[[|] sl]|] eqn:R; cbn [option_map fst] in H; [apply (Hrta sl); reflexivity|apply Hmid; exact H|discriminate].
Qed.
Print Assumptions C56_combined_safe.

(** Suspending tasks are left to LA, and an acceptance covers their suspensions. *)
Theorem C56_combined_suspending_safe : forall fuel ffuel bfuel lfuel bslow lslow (m : nat) ts step wb wr wf wl wla ffdbf load,
  Forall la_input ts -> Exists (fun t => 0 < n_susp t) ts ->
  n_gedf_full fuel ffuel bfuel lfuel bslow lslow (Z.of_nat m) step wb wr wf wl wla ffdbf load ts = Some true ->
  wla = true /\ sgedf_schedulable (map en ts) (susp_of ts) m.
Proof.
  intros fuel ffuel bfuel lfuel bslow lslow m ts step wb wr wf wl wla ffdbf load Hi Hs H. unfold n_gedf_full, n_gedf in H. cbn [andb] in H.
  destruct (has_only_feasible ts && is_not_overutilized ts (Z.of_nat m)) eqn:P; [|discriminate]. cbn [negb] in H.
  apply andb_true_iff in P. destruct P as [P _]. apply feasible_n in P.
  destruct (Nat.eqb_spec (length ts) 0) as [L|L]; [destruct ts; [inversion Hs|discriminate]|].
  assert (N : has_no_suspending ts = false).
  { apply not_true_iff_false. intros E. unfold has_no_suspending in E. rewrite forallb_forall in E. apply Exists_exists in Hs. destruct Hs as [t [Ht X]].
    specialize (E t Ht). unfold n_suspending in E. apply negb_true_iff, Z.ltb_ge in E. lia. }
  rewrite N in H. cbn [negb] in H. injection H as H. apply andb_true_iff in H. destruct H as [W H]. split; [exact W|].
  destruct (n_la lfuel lslow (Z.of_nat m) ts false) as [b|] eqn:E; [|discriminate]. cbn in H. subst b.
  apply (la_core lfuel lslow); [|exact E]. apply Forall_forall. intros t Ht. rewrite Forall_forall in Hi, P. specialize (Hi t Ht). specialize (P t Ht). unfold la_input, la_task in *. lia.
Qed.
Print Assumptions C56_combined_suspending_safe.

Example C56_suspending_case : Forall la_input ex_la /\ Exists (fun t => 0 < n_susp t) ex_la /\
  n_gedf_full 30 60 100 100 (fun _ => false) never 2 1 true true false false true (fun _ => false) (fun _ => false) ex_la = Some true.
Proof. split; [apply C55_case|]. split; [apply Exists_cons_hd; cbn; lia|]. vm_compute. reflexivity. Qed.

(** With the default switches the combined test accepts sets with deadlines beyond
    the period that miss deadlines: LA is on, and is_schedulable_cpp cannot turn it off. *)
Theorem C56_combined_arbitrary_deadlines_unsafe : exists (m : nat) ts, (2 <= m)%nat /\ Forall wf_task ts /\ Forall feasible ts /\ (forall ffdbf load, n_gedf_full 30 60 100 100 (fun _ => false) never (Z.of_nat m) 1 true true false false true ffdbf load (get_native_taskset ts) = Some true) /\ (forall ffdbf load, n_gedf_full 30 60 100 100 (fun _ => false) never (Z.of_nat m) 1 true true false false false ffdbf load (get_native_taskset ts) = Some false) /\ ~ gedf_schedulable (map e_of ts) m.
Proof.
  exists 2%nat, bad_la. split; [lia|]. split; [unfold bad_la; all_lia|]. split; [unfold bad_la; all_lia|]. split; [intros; vm_compute; reflexivity|]. split; [intros; vm_compute; reflexivity|]. apply bad_la_misses.
Qed.
Print Assumptions C56_combined_arbitrary_deadlines_unsafe.

(** On one processor the density shortcut, whose density is cost / deadline, accepts
    such a set as well. *)
Theorem C56_combined_uniprocessor_unsafe : exists ts, Forall wf_task ts /\ Forall feasible ts /\ (forall wla ffdbf load, n_gedf_full 30 60 100 100 (fun _ => false) never 1 1 true true false false wla ffdbf load (get_native_taskset ts) = Some true) /\ ~ gedf_schedulable (map e_of ts) 1.
Proof.
  exists [Task 75 3750 150; Task 49 50 98]. split; [all_lia|]. split; [all_lia|]. split; [intros; vm_compute; reflexivity|].
  apply (C36_refutes 600 (fun n => n) 1 [Task 75 3750 150; Task 49 50 98] 500); [|lia|vm_compute; reflexivity].
  split; [lia|]. split; [discriminate|]. repeat constructor; cbn; lia.
Qed.
Print Assumptions C56_combined_uniprocessor_unsafe.

Example C56_combined_case : n_gedf_full 30 60 100 100 (fun _ => false) never 2 1 true false false false false (fun _ => false) (fun _ => false) (get_native_taskset ex_bar) = Some true /\ n_gedf_full 30 60 100 100 (fun _ => false) never 2 1 false false false false true (fun _ => false) (fun _ => false) (get_native_taskset ex_bar) = Some true /\ n_gedf_full 30 60 100 100 (fun _ => false) never 2 1 false false false false false (fun _ => false) (fun _ => false) (get_native_taskset ex_bar) = Some false.
Proof. repeat split; vm_compute; reflexivity. Qed.
