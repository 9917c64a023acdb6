(** Property theorems C15-C19: the global EDF tests of schedcat/sched/edf and
    their C++ counterparts in native/src/edf. *)
From Coq Require Import ZArith QArith List Bool Lia Permutation.
From Verif Require Import Base ModelTasks ModelNative ModelGEDF ModelGEDFNative SpecUni SpecQPA SpecGlobal
  ProofUni ProofEDF ProofGlobal ProofGlobalGreedy ProofGEDF ProofGEDFIter ProofGEDFRta ProofGEDFNative ProofGEDFOrder.
Import ListNotations.
Open Scope Z_scope.

(** closes [Forall P l] for a literal list and a linear P *)
Ltac all_lia := repeat first [apply Forall_nil | apply Forall_cons; [unfold wf_task, constrained, feasible, pre_task, constrained; cbn; lia|]].

(** ** The specification is not vacuous *)

(** Every legal job sequence has a global EDF schedule on m processors. *)
Theorem C15_gedf_schedules_exist : forall ts m s, Forall wf_etask ts -> legal_edf ts s ->
  exists sc, gvalid (length ts) m s sc /\ gedf ts m s sc.
Proof. exact gedf_exists. Qed.
Print Assumptions C15_gedf_schedules_exist.

(** ** C15: GFB *)
Theorem C15_gfb_sound : forall (m : nat) ts, (1 <= m)%nat -> Forall wf_task ts -> Forall constrained ts ->
  gfb_test (Z.of_nat m) ts = true -> gedf_schedulable (map e_of ts) m.
Proof. exact gfb_sound. Qed.
Print Assumptions C15_gfb_sound.

Definition ex1 : taskset := [Task 2 6 5; Task 2 8 6; Task 3 12 12; Task 1 4 4].
Example C15_case : Forall wf_task ex1 /\ Forall constrained ex1 /\ gfb_test 2 ex1 = true /\ (1 < ts_density ex1)%Q.
Proof. split; [unfold ex1; all_lia|]. split; [unfold ex1; all_lia|]. split; reflexivity. Qed.

(** a task set the test rejects, and that misses a deadline *)
Example C15_reject : gfb_test 2 [Task 3 3 3; Task 1 3 3; Task 1 3 3; Task 2 3 3] = false.
Proof. reflexivity. Qed.

(** A job that needs more time than its relative deadline cannot meet it. *)
Lemma gservice_le : forall sc j t, gservice sc j t <= Z.of_nat t.
Proof.
  intros sc j t. unfold gservice. induction t; cbn [sumf]; [lia|]. rewrite Nat2Z.inj_succ.
  destruct (gruns sc j t); cbn [b2z]; lia.
Qed.

Lemma infeasible_misses : forall ts m k, Forall wf_task ts -> (k < length ts)%nat -> t_deadline (nth k ts dt) < t_cost (nth k ts dt) ->
  ~ gedf_schedulable (map e_of ts) m.
Proof.
  intros ts m k Hw Hk Hbad H. pose proof (wf_e_of ts Hw) as Hwf. set (es := map e_of ts) in *.
  destruct (gedf_exists es m (synchronous es) Hwf (synchronous_legal es Hwf)) as [sc [V G]].
  assert (Hke : (k < length es)%nat) by (unfold es; rewrite map_length; assumption).
  destruct (H (synchronous es) sc (synchronous_legal es Hwf) V G (k, 0%nat) (e_of (nth k ts dt))) as [q [Q1 Q2]].
  - cbn [fst]. unfold es. apply map_nth_error. apply nth_error_nth'. assumption.
  - cbn [fst snd] in *. unfold gcompleted in Q2. cbn [fst snd] in Q2.
    destruct (synchronous_spec es k 0 Hwf Hke) as [A1 [_ A3]]. cbv zeta in *.
    assert (E : nth k es (ETask 0 1 0) = e_of (nth k ts dt)).
    { unfold es. change (ETask 0 1 0) with (e_of dt). apply map_nth. }
    fold (et es k) in E. unfold et in *. rewrite E in A1, A3. cbn [e_of e_cost e_period e_deadline] in *.
    pose proof (gservice_le sc (k, 0%nat) q). lia.
Qed.

(** with zero processors the bound of the density test is dmax *)
Theorem C15_zero_processors_refuted : exists ts, Forall wf_task ts /\ Forall constrained ts /\
  gfb_test 0 ts = true /\ ~ gedf_schedulable (map e_of ts) 0.
Proof.
  exists [Task 1 2 2]. split; [all_lia|]. split; [all_lia|]. split; [reflexivity|].
  intros H. pose proof (wf_e_of [Task 1 2 2] ltac:(all_lia)) as Hwf. set (es := map e_of [Task 1 2 2]) in *.
  destruct (gedf_exists es 0 (synchronous es) Hwf (synchronous_legal es Hwf)) as [sc [V G]].
  destruct (H (synchronous es) sc (synchronous_legal es Hwf) V G (0%nat, 0%nat) (ETask 1 2 2) eq_refl) as [q [_ Q2]].
  assert (Z0 : gservice sc (0%nat, 0%nat) q = 0).
  { unfold gservice. induction q; [reflexivity|]. cbn [sumf]. rewrite IHq; [|].
    - destruct (V q) as [L _]. unfold gruns. destruct (sc q); [reflexivity|cbn in L; lia].
    - unfold gcompleted in *. cbn [fst snd] in *. clear - Q2 V. unfold gservice in *. cbn [sumf] in Q2.
      destruct (V q) as [L _]. unfold gruns in Q2 at 2. destruct (sc q); [|cbn in L; lia]. cbn [existsb b2z] in Q2. lia. }
  unfold gcompleted in Q2. cbn [fst snd] in Q2. rewrite Z0 in Q2. unfold es in Q2. cbn in Q2. lia.
Qed.
Print Assumptions C15_zero_processors_refuted.

(** ** C16: BCL *)
Theorem C16_bcl_sound : forall (m : nat) ts, Forall wf_task ts -> Forall constrained ts -> Forall feasible ts ->
  bcl_test (Z.of_nat m) ts = true -> gedf_schedulable (map e_of ts) m.
Proof. exact bcl_sound. Qed.
Print Assumptions C16_bcl_sound.

Definition ex2 : taskset := [Task 1 5 5; Task 5 6 6; Task 1 7 7].
Example C16_case : Forall wf_task ex2 /\ Forall constrained ex2 /\ Forall feasible ex2 /\ bcl_test 2 ex2 = true /\ gfb_test 2 ex2 = false.
Proof. unfold ex2. split; [all_lia|]. split; [all_lia|]. split; [all_lia|]. split; reflexivity. Qed.

(** Without the check cost <= deadline, which the Python test does not make, it
    accepts task sets that miss deadlines. *)
Theorem C16_infeasible_tasks_refuted : exists (m : nat) ts, (1 <= m)%nat /\ Forall wf_task ts /\ Forall constrained ts /\
  bcl_test (Z.of_nat m) ts = true /\ ~ gedf_schedulable (map e_of ts) m.
Proof.
  exists 1%nat, [Task 3 10 2; Task 3 10 2; Task 3 10 2]. split; [lia|]. split; [all_lia|].
  split; [all_lia|]. split; [reflexivity|].
  apply infeasible_misses with (k := 0%nat); [all_lia|cbn; lia|cbn; lia].
Qed.
Print Assumptions C16_infeasible_tasks_refuted.

(** ** C18: the iterative tests *)

Definition feasible_set (ts : taskset) : Prop := Forall wf_task ts /\ Forall constrained ts /\ Forall feasible ts.

(** bcl_iterative: soundness of the verdict and of the slack values *)
Theorem C18_bcli_sound : forall fuel (m : nat) ts lim slack, (1 <= m)%nat -> Forall wf_task ts -> Forall constrained ts -> Forall feasible ts ->
  bcli_test fuel (Z.of_nat m) ts lim = Some (true, slack) ->
  forall s sc, legal_edf (map e_of ts) s -> gvalid (length (map e_of ts)) m s sc -> gedf (map e_of ts) m s sc ->
  forall j, (fst j < length ts)%nat -> responds s sc j (t_deadline (nth (fst j) ts dt) - nth (fst j) slack 0).
Proof. exact bcli_sound. Qed.
Print Assumptions C18_bcli_sound.

Lemma bcli_terminates : forall m ts lim, 1 <= m -> feasible_set ts -> exists N, forall fuel, (N <= fuel)%nat ->
  exists b slack, bcli_test fuel m ts lim = Some (b, slack) /\ length slack = length ts /\
  forall k, (k < length ts)%nat -> 0 <= nth k slack 0 <= t_deadline (nth k ts dt) - t_cost (nth k ts dt).
Proof.
  intros m ts lim Hm [Hw [Hc Hf]]. exists (S (Z.to_nat (cap ts))). intros fuel Hfu.
  pose proof (bInv_init m ts Hw Hf Hc) as I0.
  assert (N : bcli_test fuel m ts lim <> None).
  { apply bloop_terminates; try assumption. intros _. pose proof (bInv_cap m ts _ I0).
    assert (Z0 : zsum (map (fun _ : task => 0) ts) = 0) by (clear; induction ts; cbn; lia). rewrite Z0 in *. lia. }
  destruct (bcli_test fuel m ts lim) as [[b slack]|] eqn:E; [|congruence]. exists b, slack. split; [reflexivity|].
  apply (bloop_spec m ts Hm Hw Hf Hc) in E; [|assumption|discriminate]. destruct E as [[L I] _]. split; [assumption|].
  intros k Hk. apply (I k Hk).
Qed.

(** it terminates for every round limit, with slack between 0 and deadline - cost *)
Theorem C18_bcli_terminates : forall m ts lim, 1 <= m -> feasible_set ts -> exists N, forall fuel, (N <= fuel)%nat ->
  exists b slack, bcli_test fuel m ts lim = Some (b, slack) /\ length slack = length ts /\
  forall k, (k < length ts)%nat -> 0 <= nth k slack 0 <= t_deadline (nth k ts dt) - t_cost (nth k ts dt).
Proof. exact bcli_terminates. Qed.
Print Assumptions C18_bcli_terminates.

Definition ex3 : taskset := [Task 1 5 4; Task 2 6 5; Task 2 7 6; Task 2 9 9].
Example C18_bcli_case : feasible_set ex3 /\ bcli_test 20 2 ex3 0 = Some (true, [0; 1; 1; 3]) /\ bcl_test 2 ex3 = true.
Proof. split; [|split; reflexivity]. unfold feasible_set, ex3. split; [|split]; all_lia. Qed.

(** the soundness of the verdict needs cost <= deadline *)
Theorem C18_bcli_infeasible_refuted : exists (m : nat) ts slack, (1 <= m)%nat /\ Forall wf_task ts /\ Forall constrained ts /\
  bcli_test 50 (Z.of_nat m) ts 0 = Some (true, slack) /\ ~ gedf_schedulable (map e_of ts) m.
Proof.
  exists 1%nat, [Task 5 10 2; Task 5 10 2; Task 5 10 2; Task 5 10 2]. eexists. split; [lia|]. split; [all_lia|].
  split; [all_lia|]. split; [vm_compute; reflexivity|].
  apply infeasible_misses with (k := 0%nat); [all_lia|cbn; lia|cbn; lia].
Qed.
Print Assumptions C18_bcli_infeasible_refuted.

(** rta: a True verdict records bounds that hold in every schedule, whatever the
    round limit and the minimum step *)
Theorem C18_rta_sound : forall fuel ffuel (m : nat) ts lim delta slack, (1 <= m)%nat -> Forall wf_task ts -> Forall constrained ts -> Forall feasible ts ->
  rta_test fuel ffuel (Z.of_nat m) ts lim delta = Some (true, slack) ->
  (length slack = length ts /\ forall k, (k < length ts)%nat -> 0 <= nth k slack 0 <= t_deadline (nth k ts dt) - t_cost (nth k ts dt)) /\
  forall s sc, legal_edf (map e_of ts) s -> gvalid (length (map e_of ts)) m s sc -> gedf (map e_of ts) m s sc ->
  forall j, (fst j < length ts)%nat -> responds s sc j (t_deadline (nth (fst j) ts dt) - nth (fst j) slack 0).
Proof. exact rta_sound. Qed.
Print Assumptions C18_rta_sound.

Lemma rta_bounds_sound : forall fuel ffuel (m : nat) ts lim delta rs, (1 <= m)%nat -> feasible_set ts ->
  rta_bounds fuel ffuel (Z.of_nat m) ts lim delta = Some (Some rs) ->
  length rs = length ts /\
  (forall k, (k < length ts)%nat -> t_cost (nth k ts dt) <= nth k rs 0 <= t_deadline (nth k ts dt)) /\
  forall s sc, legal_edf (map e_of ts) s -> gvalid (length (map e_of ts)) m s sc -> gedf (map e_of ts) m s sc ->
  forall j, (fst j < length ts)%nat -> responds s sc j (nth (fst j) rs 0).
Proof.
  intros fuel ffuel m ts lim delta rs Hm [Hw [Hc Hf]] H. unfold rta_bounds in H.
  destruct (rta_test fuel ffuel (Z.of_nat m) ts lim delta) as [[[|] slack]|] eqn:E; try discriminate. injection H as <-.
  destruct (rta_sound fuel ffuel m ts lim delta slack Hm Hw Hc Hf E) as [[L I] S].
  assert (N : forall k, (k < length ts)%nat -> nth k (map (fun p => t_deadline (fst p) - snd p) (combine ts slack)) 0 = t_deadline (nth k ts dt) - nth k slack 0).
  { intros k Hk. rewrite (nth_indep _ 0 ((fun p => t_deadline (fst p) - snd p) (dt, 0))) by (rewrite map_length, combine_length, L, Nat.min_id; assumption).
    rewrite (map_nth (fun p : task * Z => t_deadline (fst p) - snd p)), combine_nth by (symmetry; assumption). reflexivity. }
  split; [rewrite map_length, combine_length, L; apply Nat.min_id|]. split.
  - intros k Hk. rewrite N by assumption. specialize (I k Hk). lia.
  - intros s sc Hl Hv Hp j Hj. rewrite N by assumption. apply S; assumption.
Qed.

(** bound_response_times records, for every task, a response time between cost
    and deadline that no job exceeds *)
Theorem C18_rta_bounds_sound : forall fuel ffuel (m : nat) ts lim delta rs, (1 <= m)%nat -> feasible_set ts ->
  rta_bounds fuel ffuel (Z.of_nat m) ts lim delta = Some (Some rs) ->
  length rs = length ts /\
  (forall k, (k < length ts)%nat -> t_cost (nth k ts dt) <= nth k rs 0 <= t_deadline (nth k ts dt)) /\
  forall s sc, legal_edf (map e_of ts) s -> gvalid (length (map e_of ts)) m s sc -> gedf (map e_of ts) m s sc ->
  forall j, (fst j < length ts)%nat -> responds s sc j (nth (fst j) rs 0).
Proof. exact rta_bounds_sound. Qed.
Print Assumptions C18_rta_bounds_sound.

Lemma ffuel_exists : forall ts, exists N, forall ffuel, (N <= ffuel)%nat -> ffuel_ok ts ffuel.
Proof.
  intros ts. unfold ffuel_ok. assert (G : forall n, exists N, forall ffuel, (N <= ffuel)%nat -> forall k, (k < n)%nat ->
    2 * (t_deadline (nth k ts dt) - t_cost (nth k ts dt)) + 1 < Z.of_nat ffuel).
  { induction n as [|n [N IH]]; [exists 0%nat; intros; lia|].
    exists (Nat.max N (S (S (Z.to_nat (2 * (t_deadline (nth n ts dt) - t_cost (nth n ts dt))))))). intros ffuel Hff k Hk.
    destruct (Nat.eq_dec k n) as [->|E]; [lia|]. apply IH; lia. }
  apply G.
Qed.

Lemma rta_terminates : forall m ts lim delta, 1 <= m -> feasible_set ts -> (1 <= lim \/ delta <= 1) ->
  exists N, forall fuel ffuel, (N <= fuel)%nat -> (N <= ffuel)%nat -> rta_test fuel ffuel m ts lim delta <> None.
Proof.
  intros m ts lim delta Hm [Hw [Hc Hf]] Hor. destruct (ffuel_exists ts) as [N1 H1].
  exists (Nat.max N1 (Nat.max (Z.to_nat lim) (S (Z.to_nat (cap ts))))). intros fuel ffuel A B.
  assert (Hff : ffuel_ok ts ffuel) by (apply H1; lia). destruct Hor as [Hl|Hd].
  - apply rloop_limited; try assumption; [apply inr_init; assumption|lia].
  - apply rloop_unlimited; try assumption; [apply rMon_init; assumption|]. intros _.
    assert (Z0 : zsum (map (fun _ : task => 0) ts) = 0) by (clear; induction ts; cbn; lia). rewrite Z0.
    pose proof (rMon_cap ts _ (inr_init ts Hw Hf Hc)). lia.
Qed.

(** termination, for every round limit >= 1 and every minimum step, and without
    a limit for a minimum step of at most one *)
Theorem C18_rta_terminates : forall m ts lim delta, 1 <= m -> feasible_set ts -> (1 <= lim \/ delta <= 1) ->
  exists N, forall fuel ffuel, (N <= fuel)%nat -> (N <= ffuel)%nat -> rta_test fuel ffuel m ts lim delta <> None.
Proof. exact rta_terminates. Qed.
Print Assumptions C18_rta_terminates.

Definition ex4 : taskset := [Task 2 4 3; Task 1 11 9; Task 1 13 6; Task 2 20 19; Task 2 9 9; Task 1 3 2].
Example C18_rta_case : feasible_set ex4 /\ exists slack, rta_test 26 60 2 ex4 25 1 = Some (true, slack) /\
  bcl_test 2 ex4 = false /\ gfb_test 2 ex4 = false.
Proof.
  split; [unfold feasible_set, ex4; split; [|split]; all_lia|]. eexists. split; [vm_compute; reflexivity|]. split; reflexivity.
Qed.

(** Divergence.  A task with cost > deadline makes the iteration of another task
    fall for ever; no other parameter is out of range. *)
Definition div_set : taskset := [Task 10 10 5; Task 9 9 5; Task 1 9 4; Task 1 2 1].

Lemma div_est : forall x, x <= 0 -> response_estimate 2 (Task 1 9 4) div_set [0; 0; 0; 0] 3 x = x - 2.
Proof.
  intros x Hx. unfold response_estimate, others, div_set.
  cbn [combine firstn skipn app map fst snd zsum t_cost t_period t_deadline].
  unfold rta_interfering_workload, edf_interfering_workload. cbn [t_cost t_period t_deadline].
  change (4 / 10) with 0. change (4 / 9) with 0. change (4 / 2) with 2. change (4 mod 10) with 4. change (4 mod 9) with 4. change (4 mod 2) with 0.
  assert (E : forall a T, 0 < T -> a / T * T + Z.min T (a mod T) = a).
  { intros a T HT. pose proof (Z.div_mod a T ltac:(lia)). pose proof (Z.mod_pos_bound a T HT). lia. }
  rewrite (E (x + 5 - 10 - 0) 10), (E (x + 5 - 9 - 0) 9) by lia.
  replace (x + 1 - 1 - 0) with x by lia.
  assert (H2 : x <= x / 2 * 1 + Z.min 1 (x mod 2)).
  { pose proof (Z.div_mod x 2 ltac:(lia)). pose proof (Z.mod_pos_bound x 2 ltac:(lia)). lia. }
  set (h := x / 2 * 1 + Z.min 1 (x mod 2)) in *. change (0 * 10) with 0. change (0 * 9) with 0. change (2 * 1) with 2.
  replace (Z.min (Z.min (x + 5 - 10 - 0) (0 + Z.min 10 (Z.max 0 (4 - 0)))) (x - 1 + 1)) with (x - 5) by lia.
  replace (Z.min (Z.min (x + 5 - 9 - 0) (0 + Z.min 9 (Z.max 0 (4 - 0)))) (x - 1 + 1)) with (x - 4) by lia.
  replace (Z.min (Z.min h (2 + Z.min 1 (Z.max 0 (0 - 0)))) (x - 1 + 1)) with x by lia.
  replace (x - 5 + (x - 4 + (x + 0))) with (x * 3 + -9) by lia. rewrite Z.div_add_l by lia. change (-9 / 3) with (-3). lia.
Qed.

Lemma div_loop : forall delta, delta <= 1 -> forall fuel last, last <= 0 ->
  rta_fix_loop fuel (response_estimate 2 (Task 1 9 4) div_set [0; 0; 0; 0] 3) 4 delta last (response_estimate 2 (Task 1 9 4) div_set [0; 0; 0; 0] 3 last) = None.
Proof.
  intros delta Hd. induction fuel; intros last Hl; cbn [rta_fix_loop]; rewrite div_est by assumption;
    (destruct (Z.eqb_spec last (last - 2)); [lia|]); (destruct (Z.leb_spec (last - 2) 4); [|lia]); cbn [negb andb]; [reflexivity|].
  destruct (Z.ltb_spec last (last - 2)); [lia|]. cbn [andb]. apply IHfuel. lia.
Qed.

Lemma div_fixpoint : forall fuel delta, delta <= 1 -> rta_fixpoint fuel 2 (Task 1 9 4) div_set [0; 0; 0; 0] 3 delta = None.
Proof.
  intros fuel delta Hd. unfold rta_fixpoint. cbn [t_cost t_deadline].
  assert (E1 : response_estimate 2 (Task 1 9 4) div_set [0; 0; 0; 0] 3 1 = -1) by reflexivity.
  destruct fuel; cbn [rta_fix_loop]; rewrite E1; cbn [Z.eqb negb Z.leb andb Z.compare]; [reflexivity|].
  change (1 <? -1) with false. cbn [andb]. apply (div_loop delta Hd fuel (-1)). lia.
Qed.


Lemma div_test : forall fuel ffuel lim, 0 <= lim -> rta_test fuel ffuel 3 div_set lim 1 = None.
Proof.
  intros fuel ffuel lim Hl. unfold rta_test.
  assert (Cn : continue lim 0 true false = true).
  { unfold continue. cbn. destruct (Z.eqb_spec lim 0); [reflexivity|]. destruct (Z.ltb_spec 0 lim); [reflexivity|lia]. }
  destruct fuel; cbn [rta_loop]; rewrite Cn; [reflexivity|].
  assert (R : rta_round ffuel 3 1 div_set (map (fun _ => 0) div_set) = None).
  { unfold rta_round. change (map (fun _ : task => 0) div_set) with [0; 0; 0; 0].
    change (indexed div_set) with [(0%nat, Task 10 10 5); (1%nat, Task 9 9 5); (2%nat, Task 1 9 4); (3%nat, Task 1 2 1)].
    cbn [fold_left]. destruct ffuel as [|ffuel].
    - unfold rta_step at 4. change (rta_fixpoint 0 0 (Task 10 10 5) div_set [0; 0; 0; 0] 3 1) with (Some 11). cbn [t_deadline Z.leb Z.compare Pos.compare Pos.compare_cont].
      unfold rta_step at 3. change (rta_fixpoint 0 1 (Task 9 9 5) div_set [0; 0; 0; 0] 3 1) with (Some 10). cbn [t_deadline Z.leb Z.compare Pos.compare Pos.compare_cont].
      unfold rta_step at 2. rewrite div_fixpoint by lia. reflexivity.
    - unfold rta_step at 4. change (rta_fixpoint (S ffuel) 0 (Task 10 10 5) div_set [0; 0; 0; 0] 3 1) with (Some 11). cbn [t_deadline Z.leb Z.compare Pos.compare Pos.compare_cont].
      unfold rta_step at 3. change (rta_fixpoint (S ffuel) 1 (Task 9 9 5) div_set [0; 0; 0; 0] 3 1) with (Some 10). cbn [t_deadline Z.leb Z.compare Pos.compare Pos.compare_cont].
      unfold rta_step at 2. rewrite div_fixpoint by lia. reflexivity. }
  rewrite R. reflexivity.
Qed.

(** rta.is_schedulable(3, div_set) never returns *)
Theorem C18_rta_divergence_refuted : exists m ts, 1 <= m /\ Forall wf_task ts /\ Forall constrained ts /\
  (ts_utilization ts None <= inject_Z m)%Q /\ Forall (fun t => t_cost t <= t_period t) ts /\
  forall fuel ffuel lim, 0 <= lim -> rta_test fuel ffuel m ts lim 1 = None.
Proof.
  exists 3, div_set. unfold div_set at 1 2. split; [lia|]. split; [all_lia|]. split; [all_lia|].
  split; [discriminate|]. split; [unfold div_set; all_lia|]. exact div_test.
Qed.
Print Assumptions C18_rta_divergence_refuted.

(** ** C17: the C++ versions agree *)

(** the documented preconditions: feasible tasks, constrained deadlines, not over-utilized *)
Definition native_pre (m : Z) (ts : taskset) : Prop :=
  Forall pre_task ts /\ Forall constrained ts /\ (ts_utilization ts None <= inject_Z m)%Q.

Lemma native_rejects : forall m ts fuel ffuel lim delta, Forall wf_task ts -> ~ native_pre m ts ->
  n_gfb m (get_native_taskset ts) true = false /\ n_bcl m (get_native_taskset ts) true = false /\
  n_bcli fuel m (get_native_taskset ts) lim true = Some false /\ n_rta fuel ffuel m delta (get_native_taskset ts) lim true = Some false.
Proof.
  intros m ts fuel ffuel lim delta Hw Hn. rewrite native_map by assumption.
  assert (P : preconditions m (map nt ts) = false).
  { apply not_true_iff_false. rewrite pre_iff. exact Hn. }
  unfold n_gfb, n_bcl, n_bcli, n_rta. rewrite P.
  assert (P' : has_only_feasible (map nt ts) && is_not_overutilized (map nt ts) m && has_only_constrained (map nt ts) && has_only_feasible (map nt ts) = false).
  { unfold preconditions in P. rewrite no_susp, andb_true_r in P. rewrite P. reflexivity. }
  rewrite P'. cbn. auto.
Qed.

Lemma gfb_agree' : forall m ts, native_pre m ts -> n_gfb m (get_native_taskset ts) true = gfb_test m ts.
Proof. intros m ts [H1 [H2 H3]]. apply gfb_agree; assumption. Qed.
Lemma bak_agree' : forall m ts, native_pre m ts -> Forall (fun t => t_period t < 2 ^ 64) ts -> n_bak m (get_native_taskset ts) true = bak_test m ts.
Proof. intros m ts [H1 [H2 H3]] H4. apply bak_agree; assumption. Qed.
Lemma bcl_agree' : forall m ts, native_pre m ts -> n_bcl m (get_native_taskset ts) true = bcl_test m ts.
Proof. intros m ts [H1 [H2 H3]]. apply bcl_agree; assumption. Qed.
Lemma bcli_agree' : forall fuel m ts lim, 1 <= m -> 0 <= lim -> native_pre m ts -> (1 <= fuel)%nat ->
  n_bcli fuel m (get_native_taskset ts) lim true = option_map fst (bcli_test fuel m ts lim).
Proof. intros fuel m ts lim Hm Hl [H1 [H2 H3]] Hf. apply bcli_agree; assumption. Qed.
Lemma rta_agree' : forall fuel ffuel m ts lim delta, 1 <= m -> 0 <= lim -> native_pre m ts -> (1 <= fuel)%nat ->
  n_rta fuel ffuel m delta (get_native_taskset ts) lim true = option_map fst (rta_test fuel ffuel m ts lim delta).
Proof. intros fuel ffuel m ts lim delta Hm Hl [H1 [H2 H3]] Hf. apply rta_agree; assumption. Qed.

Lemma only_constrained_iff : forall ts, only_constrained_deadlines ts = true <-> Forall constrained ts.
Proof.
  intros ts. unfold only_constrained_deadlines, constrained_deadline, constrained. rewrite forallb_forall, Forall_forall.
  split; intros H t Ht; specialize (H t Ht); [apply Z.leb_le|apply Z.leb_le]; assumption.
Qed.

Theorem C17_gfb_agree : forall m ts, native_pre m ts -> n_gfb m (get_native_taskset ts) true = gfb_test m ts.
Proof. exact gfb_agree'. Qed.
Print Assumptions C17_gfb_agree.

Theorem C17_bak_agree : forall m ts, native_pre m ts -> Forall (fun t => t_period t < 2 ^ 64) ts ->
  n_bak m (get_native_taskset ts) true = bak_test m ts.
Proof. exact bak_agree'. Qed.
Print Assumptions C17_bak_agree.

Theorem C17_bcl_agree : forall m ts, native_pre m ts -> n_bcl m (get_native_taskset ts) true = bcl_test m ts.
Proof. exact bcl_agree'. Qed.
Print Assumptions C17_bcl_agree.

Theorem C17_bcli_agree : forall fuel m ts lim, 1 <= m -> 0 <= lim -> native_pre m ts -> (1 <= fuel)%nat ->
  n_bcli fuel m (get_native_taskset ts) lim true = option_map fst (bcli_test fuel m ts lim).
Proof. exact bcli_agree'. Qed.
Print Assumptions C17_bcli_agree.

Theorem C17_rta_agree : forall fuel ffuel m ts lim delta, 1 <= m -> 0 <= lim -> native_pre m ts -> (1 <= fuel)%nat ->
  n_rta fuel ffuel m delta (get_native_taskset ts) lim true = option_map fst (rta_test fuel ffuel m ts lim delta).
Proof. exact rta_agree'. Qed.
Print Assumptions C17_rta_agree.

(** outside the preconditions the C++ versions reject *)
Theorem C17_native_rejects : forall m ts fuel ffuel lim delta, Forall wf_task ts -> ~ native_pre m ts ->
  n_gfb m (get_native_taskset ts) true = false /\ n_bcl m (get_native_taskset ts) true = false /\
  n_bcli fuel m (get_native_taskset ts) lim true = Some false /\ n_rta fuel ffuel m delta (get_native_taskset ts) lim true = Some false.
Proof. exact native_rejects. Qed.
Print Assumptions C17_native_rejects.

Example C17_case : native_pre 2 ex4 /\ n_gfb 2 (get_native_taskset ex4) true = false /\ n_bak 2 (get_native_taskset ex1) true = true /\
  n_rta 26 60 2 1 (get_native_taskset ex4) 25 true = Some true /\ n_bcli 26 2 (get_native_taskset ex3) 0 true = Some true.
Proof.
  split; [unfold native_pre, ex4; split; [all_lia|split; [all_lia|discriminate]]|].
  split; [reflexivity|]. split; [reflexivity|]. split; vm_compute; reflexivity.
Qed.

(** For deadlines beyond the period BAK is documented as applicable, but the two
    versions differ (different density, unsigned wrap-around of period - deadline). *)
Theorem C17_bak_arbitrary_deadlines_refuted : exists m ts, 1 <= m /\ Forall pre_task ts /\ (ts_utilization ts None <= inject_Z m)%Q /\
  bak_test m ts = true /\ n_bak m (get_native_taskset ts) true = false.
Proof.
  exists 2, [Task 1 2 3; Task 1 2 3]. split; [lia|]. split; [all_lia|]. split; [discriminate|]. split; vm_compute; reflexivity.
Qed.
Print Assumptions C17_bak_arbitrary_deadlines_refuted.

(** the combined test for two or more processors, with the same answers of the
    BAR and FF-DBF tests on both sides *)
Lemma combined_agree : forall fuel ffuel m ts step (wb wr wf : bool) bar ffdbf n_bar n_ffdbf la load,
  2 <= m -> native_pre m ts -> Forall (fun t => t_period t < 2 ^ 64) ts -> (1 <= fuel)%nat ->
  bar m ts = Some (n_bar (get_native_taskset ts)) -> ffdbf m ts = Some (n_ffdbf (get_native_taskset ts)) ->
  rta_test fuel ffuel m ts 25 step <> None ->
  n_gedf fuel ffuel m step wb wr wf false false n_bar n_ffdbf la load (get_native_taskset ts) true =
  is_schedulable_py fuel ffuel bar ffdbf m ts step (if wb then TTrue else TFalse) wr wf.
Proof.
  intros fuel ffuel m ts step wb wr wf bar ffdbf n_bar n_ffdbf la load Hm Hp Hs Hfu Hb Hd Hr.
  pose proof (bak_agree' m ts Hp Hs) as A1. pose proof (gfb_agree' m ts Hp) as A2.
  pose proof (rta_agree' fuel ffuel m ts 25 step ltac:(lia) ltac:(lia) Hp Hfu) as A3.
  pose proof Hp as [P1 [P2 P3]].
  assert (Hw : Forall wf_task ts) by (eapply Forall_impl; [|exact P1]; unfold pre_task, wf_task; intros; lia).
  assert (Pre : preconditions m (get_native_taskset ts) = true) by (rewrite native_map by assumption; apply pre_iff; auto).
  unfold n_bak, n_gfb, n_rta in A1, A2, A3. unfold n_gedf. rewrite Pre in A2. unfold preconditions in Pre.
  apply andb_true_iff in Pre. destruct Pre as [Pre Q4]. apply andb_true_iff in Pre. destruct Pre as [Pre Q3].
  apply andb_true_iff in Pre. destruct Pre as [Q1 Q2]. unfold n_bak, n_gfb, n_rta. rewrite Q1, Q2, Q3, Q4 in *. cbn [andb negb] in *.
  unfold is_schedulable_py. assert (E1 : Qle_bool (ts_utilization ts None) (inject_Z m) = true) by (apply Qle_bool_iff; assumption).
  assert (E2 : forallb (fun t => t_cost t <=? t_period t) ts = true).
  { apply forallb_forall. intros t Ht. rewrite Forall_forall in P1. specialize (P1 t Ht). unfold pre_task in P1. apply Z.leb_le. lia. }
  rewrite E1, E2, (proj2 (only_constrained_iff ts) P2). cbn [negb orb].
  destruct (Z.eqb_spec m 1) as [|_]; [lia|]. destruct (Z.ltb_spec 1 m) as [_|]; [|lia]. cbn [andb].
  rewrite A1, A2. destruct (Nat.eqb_spec (length (get_native_taskset ts)) 0) as [L0|L0].
  { destruct ts; [reflexivity|]. rewrite native_map in L0 by assumption. discriminate. }
  destruct (bak_test m ts); [reflexivity|]. destruct (gfb_test m ts); [reflexivity|].
  rewrite A3. unfold should_use_baruah_test. rewrite Hb, Hd.
  destruct (rta_test fuel ffuel m ts 25 step) as [[[|] sl]|]; [| |congruence]; cbn [option_map fst];
    destruct wb, wr, wf; cbn [andb orb]; destruct (n_bar (get_native_taskset ts)); cbn [orb]; try reflexivity;
    destruct (n_ffdbf (get_native_taskset ts)); reflexivity.
Qed.

Theorem C17_combined_agree : forall fuel ffuel m ts step (wb wr wf : bool) bar ffdbf n_bar n_ffdbf la load,
  2 <= m -> native_pre m ts -> Forall (fun t => t_period t < 2 ^ 64) ts -> (1 <= fuel)%nat ->
  bar m ts = Some (n_bar (get_native_taskset ts)) -> ffdbf m ts = Some (n_ffdbf (get_native_taskset ts)) ->
  rta_test fuel ffuel m ts 25 step <> None ->
  n_gedf fuel ffuel m step wb wr wf false false n_bar n_ffdbf la load (get_native_taskset ts) true =
  is_schedulable_py fuel ffuel bar ffdbf m ts step (if wb then TTrue else TFalse) wr wf.
Proof. exact combined_agree. Qed.
Print Assumptions C17_combined_agree.

Example C17_combined_case : n_gedf 26 60 2 1 false true false false false (fun _ => false) (fun _ => false) (fun _ => false) (fun _ => false)
  (get_native_taskset ex4) true = Some true.
Proof. vm_compute. reflexivity. Qed.

(** on one processor the Python version stops after the density bound, the C++
    version goes on to the other tests *)
Theorem C17_combined_uniprocessor_refuted : exists ts, native_pre 1 ts /\
  is_schedulable_py 26 60 (fun _ _ => Some false) (fun _ _ => Some false) 1 ts 1 TFalse true false = Some false /\
  n_gedf 26 60 1 1 false true false false false (fun _ => false) (fun _ => false) (fun _ => false) (fun _ => false) (get_native_taskset ts) true = Some true.
Proof.
  exists [Task 1 4 1; Task 1 4 3]. split; [split; [all_lia|split; [all_lia|discriminate]]|]. split; vm_compute; reflexivity.
Qed.
Print Assumptions C17_combined_uniprocessor_refuted.

(** ** C19: the combined test *)

(** what justifies an acceptance *)
Inductive justified (bar ffdbf : Z -> taskset -> option bool) (m : Z) (ts : taskset) (step : Z) : Prop :=
| by_density : m = 1 -> (ts_density ts <= 1)%Q -> justified bar ffdbf m ts step
| by_bak : 1 < m -> bak_test m ts = true -> justified bar ffdbf m ts step
| by_gfb : 1 < m -> Forall constrained ts -> gfb_test m ts = true -> justified bar ffdbf m ts step
| by_bar : 1 < m -> Forall constrained ts -> bar m ts = Some true -> justified bar ffdbf m ts step
| by_rta : forall fuel ffuel slack, 1 < m -> Forall constrained ts -> rta_test fuel ffuel m ts 25 step = Some (true, slack) -> justified bar ffdbf m ts step
| by_ffdbf : 1 < m -> Forall constrained ts -> ffdbf m ts = Some true -> justified bar ffdbf m ts step.


Lemma accept_justified : forall fuel ffuel bar ffdbf m ts step th wr wf,
  is_schedulable_py fuel ffuel bar ffdbf m ts step th wr wf = Some true ->
  (ts_utilization ts None <= inject_Z m)%Q /\ Forall (fun t => t_cost t <= t_period t) ts /\ justified bar ffdbf m ts step.
Proof.
  intros fuel ffuel bar ffdbf m ts step th wr wf H. unfold is_schedulable_py in H.
  destruct (Qle_bool (ts_utilization ts None) (inject_Z m)) eqn:E1; cbn [negb orb] in H; [|discriminate].
  destruct (forallb (fun t => t_cost t <=? t_period t) ts) eqn:E2; cbn [negb] in H; [|discriminate].
  split; [apply Qle_bool_iff; assumption|]. split.
  { rewrite forallb_forall in E2. apply Forall_forall. intros t Ht. apply Z.leb_le. apply E2. assumption. }
  destruct ((m =? 1) && Qle_bool (ts_density ts) 1) eqn:E3.
  { apply andb_true_iff in E3. destruct E3 as [A B]. apply Z.eqb_eq in A. apply Qle_bool_iff in B. apply by_density; assumption. }
  destruct (Z.ltb_spec 1 m); [|discriminate].
  destruct (bak_test m ts) eqn:E4; [apply by_bak; assumption|].
  destruct (only_constrained_deadlines ts) eqn:E5; [|discriminate]. apply only_constrained_iff in E5.
  destruct (gfb_test m ts) eqn:E6; [apply by_gfb; assumption|].
  destruct (should_use_baruah_test th ts m).
  - destruct (bar m ts) as [[|]|] eqn:E7; [apply by_bar; assumption| |discriminate].
    destruct wr.
    + destruct (rta_test fuel ffuel m ts 25 step) as [[[|] sl]|] eqn:E8; [eapply by_rta; eassumption| |discriminate].
      destruct wf; [apply by_ffdbf; assumption|discriminate].
    + destruct wf; [apply by_ffdbf; assumption|discriminate].
  - destruct wr.
    + destruct (rta_test fuel ffuel m ts 25 step) as [[[|] sl]|] eqn:E8; [eapply by_rta; eassumption| |discriminate].
      destruct wf; [apply by_ffdbf; assumption|discriminate].
    + destruct wf; [apply by_ffdbf; assumption|discriminate].
Qed.

Theorem C19_accept_justified : forall fuel ffuel bar ffdbf m ts step th wr wf,
  is_schedulable_py fuel ffuel bar ffdbf m ts step th wr wf = Some true ->
  (ts_utilization ts None <= inject_Z m)%Q /\ Forall (fun t => t_cost t <= t_period t) ts /\ justified bar ffdbf m ts step.
Proof. exact accept_justified. Qed.
Print Assumptions C19_accept_justified.

Lemma accepts_empty : forall fuel ffuel bar ffdbf m step th wr wf, 1 <= m -> is_schedulable_py fuel ffuel bar ffdbf m [] step th wr wf = Some true.
Proof.
  intros. unfold is_schedulable_py. cbn [forallb negb orb]. unfold ts_utilization, ts_density. cbn [map qsum fold_right].
  assert (E : Qle_bool 0 (inject_Z m) = true) by (apply Qle_bool_iff; change 0%Q with (inject_Z 0); rewrite <- Zle_Qle; lia).
  rewrite E. cbn [negb orb]. destruct (Z.eqb_spec m 1); [reflexivity|]. cbn [andb]. destruct (Z.ltb_spec 1 m); [reflexivity|lia].
Qed.

Theorem C19_accepts_empty : forall fuel ffuel bar ffdbf m step th wr wf, 1 <= m ->
  is_schedulable_py fuel ffuel bar ffdbf m [] step th wr wf = Some true.
Proof. exact accepts_empty. Qed.
Print Assumptions C19_accepts_empty.

Lemma m1_gfb : forall ts, (ts_density ts <= 1)%Q -> gfb_test 1 ts = true.
Proof.
  intros ts H. destruct ts as [|t r]; [reflexivity|]. unfold gfb_test. apply Qle_bool_iff.
  setoid_replace (inject_Z 1 - (inject_Z 1 - 1) * max_list (density t) (map density r))%Q with 1%Q; [assumption|].
  change (inject_Z 1) with 1%Q. ring.
Qed.

(** a task set accepted through RTA only *)
Definition no_test : Z -> taskset -> option bool := fun _ _ => Some false.
Example C19_case : feasible_set ex4 /\ bak_test 2 ex4 = false /\ is_schedulable_py 26 60 no_test no_test 2 ex4 1 TFalse true false = Some true.
Proof. split; [apply C18_rta_case|]. split; vm_compute; reflexivity. Qed.

(** The test checks cost <= period but not cost <= deadline: RTA then computes
    negative response times, and sets with a job that cannot finish in time are
    accepted. *)
Theorem C19_infeasible_accepted_refuted : exists (m : nat) ts, (1 <= m)%nat /\ Forall wf_task ts /\ Forall constrained ts /\
  is_schedulable_py 30 60 no_test no_test (Z.of_nat m) ts 1 TFalse true false = Some true /\ ~ gedf_schedulable (map e_of ts) m.
Proof.
  exists 2%nat, [Task 1 2 2; Task 1 3 1; Task 9 10 3]. split; [lia|]. split; [all_lia|]. split; [all_lia|].
  split; [vm_compute; reflexivity|].
  apply infeasible_misses with (k := 2%nat); [all_lia|cbn; lia|cbn; lia].
Qed.
Print Assumptions C19_infeasible_accepted_refuted.

(** ... or the test does not return. *)
Theorem C19_divergence_refuted : exists m ts, 1 <= m /\ Forall wf_task ts /\ Forall constrained ts /\
  forall fuel ffuel, is_schedulable_py fuel ffuel no_test no_test m ts 1 TFalse true false = None.
Proof.
  exists 3, div_set. unfold div_set at 1 2. split; [lia|]. split; [all_lia|]. split; [all_lia|].
  intros fuel ffuel. unfold is_schedulable_py.
  change (Qle_bool (ts_utilization div_set None) (inject_Z 3)) with true. change (forallb (fun t => t_cost t <=? t_period t) div_set) with true.
  change (bak_test 3 div_set) with false. change (only_constrained_deadlines div_set) with true. change (gfb_test 3 div_set) with false.
  cbn [negb orb andb Z.eqb Z.ltb Z.compare Pos.compare Pos.compare_cont Pos.eqb should_use_baruah_test]. rewrite div_test by lia. reflexivity.
Qed.
Print Assumptions C19_divergence_refuted.

(** order of the tasks: GFB, BAK, and RTA without a round limit *)
Theorem C19_gfb_order : forall m ts ts', Permutation ts ts' -> gfb_test m ts = gfb_test m ts'.
Proof. exact gfb_perm. Qed.
Print Assumptions C19_gfb_order.

Theorem C19_bak_order : forall m ts ts', Permutation ts ts' -> bak_test m ts = bak_test m ts'.
Proof. exact bak_perm. Qed.
Print Assumptions C19_bak_order.

Theorem C19_rta_order : forall m ts ts' delta fuel ffuel fuel' ffuel' b s b' s', 1 <= m -> Forall wf_task ts -> Forall feasible ts -> Forall constrained ts ->
  delta <= 1 -> Permutation ts ts' ->
  rta_test fuel ffuel m ts 0 delta = Some (b, s) -> rta_test fuel' ffuel' m ts' 0 delta = Some (b', s') -> b = b'.
Proof. exact rta_order. Qed.
Print Assumptions C19_rta_order.

Lemma py_order : forall fuel ffuel fuel' ffuel' bar ffdbf m ts ts' step th wf, Permutation ts ts' ->
  bar m ts = bar m ts' -> ffdbf m ts = ffdbf m ts' ->
  is_schedulable_py fuel ffuel bar ffdbf m ts step th false wf = is_schedulable_py fuel' ffuel' bar ffdbf m ts' step th false wf.
Proof.
  intros fuel ffuel fuel' ffuel' bar ffdbf m ts ts' step th wf Hp Hb Hd.
  assert (U : (ts_utilization ts None == ts_utilization ts' None)%Q) by (unfold ts_utilization; apply qsum_perm; apply Permutation_map; assumption).
  assert (D : (ts_density ts == ts_density ts')%Q) by (unfold ts_density; apply qsum_perm; apply Permutation_map; assumption).
  unfold is_schedulable_py. rewrite (Qle_bool_congr _ _ _ _ U (Qeq_refl _)), (Qle_bool_congr _ _ _ _ D (Qeq_refl _)).
  rewrite (forallb_perm _ _ ts ts' Hp), (bak_perm m ts ts' Hp), (gfb_perm m ts ts' Hp), Hb, Hd.
  unfold only_constrained_deadlines. rewrite (forallb_perm _ _ ts ts' Hp).
  assert (T : should_use_baruah_test th ts m = should_use_baruah_test th ts' m).
  { destruct th; try reflexivity. unfold should_use_baruah_test. rewrite (Permutation_length Hp).
    assert (S : (inject_Z m - ts_utilization ts None == inject_Z m - ts_utilization ts' None)%Q) by (rewrite U; reflexivity).
    rewrite (Qeq_bool_congr _ _ _ _ S (Qeq_refl 0)). destruct (Qeq_bool (inject_Z m - ts_utilization ts' None) 0); [reflexivity|].
    apply Qle_bool_congr; [|reflexivity]. rewrite S. reflexivity. }
  rewrite T. reflexivity.
Qed.

(** the combined test without RTA, for order-independent BAR and FF-DBF *)
Theorem C19_order_without_rta : forall fuel ffuel fuel' ffuel' bar ffdbf m ts ts' step th wf, Permutation ts ts' ->
  bar m ts = bar m ts' -> ffdbf m ts = ffdbf m ts' ->
  is_schedulable_py fuel ffuel bar ffdbf m ts step th false wf = is_schedulable_py fuel' ffuel' bar ffdbf m ts' step th false wf.
Proof. exact py_order. Qed.
Print Assumptions C19_order_without_rta.

(** with rta_min_step = 2 the verdict depends on the order *)
Theorem C19_order_refuted : exists m ts ts', 1 <= m /\ feasible_set ts /\ Permutation ts ts' /\
  is_schedulable_py 30 60 no_test no_test m ts 2 TFalse true false = Some false /\
  is_schedulable_py 30 60 no_test no_test m ts' 2 TFalse true false = Some true.
Proof.
  exists 2, [Task 1 2 1; Task 3 15 15; Task 1 7 7; Task 1 2 1; Task 1 9 7], [Task 3 15 15; Task 1 7 7; Task 1 9 7; Task 1 2 1; Task 1 2 1].
  split; [lia|]. split; [unfold feasible_set; split; [|split]; all_lia|]. split.
  - apply (Permutation_cons_app [Task 3 15 15; Task 1 7 7; Task 1 9 7]). cbn. do 2 constructor. apply perm_swap.
  - split; vm_compute; reflexivity.
Qed.
Print Assumptions C19_order_refuted.
