(** C40, C42: affinity-aware partitioning and semi-partitioning. *)
From Coq Require Import ZArith QArith List Bool Lia Arith Permutation.
From Verif Require Import Base ModelTasks ModelNative ModelQPA SpecUni SpecQPA ProofEDF PropQPA ModelAPA SpecAPA ProofAPA ProofAPAHeur ProofAPATop.
Import ListNotations.
Open Scope Z_scope.

(** A pre-assignment: well-formed tasks that are schedulable on every core. *)
Definition ok_assignment (m : mapping) : Prop := forall c, Forall wf_atask (lookup c m) /\ schedulable (lookup c m).
(** The order in which a set is iterated. *)
Definition set_order (iter : nat -> list atask -> list atask) : Prop := forall k l, Permutation (iter k l) l.
(** A bound on the number of rounds of the while loops. *)
Definition enough (rounds : nat) (tasks : list atask) : Prop := (Z.to_nat (zsum (map a_cost tasks)) < rounds)%nat.

(** [m] returns a result with property [P], the same one for every large enough bound on the
    native loops. *)
Definition returns {A} (m : nat -> res A) (P : A -> Prop) : Prop := exists N r, P r /\ forall fuel, (N <= fuel)%nat -> m fuel = Ok r.

(** The tasks of tests/apa.py, and three tasks that only fit on two cores if one is split. *)
Definition apa_ex : list atask := [ATask 1 10 100 100 [1%nat]; ATask 2 30 100 100 [1%nat; 2%nat]; ATask 3 20 100 30 [2%nat; 3%nat]; ATask 4 21 30 30 [1%nat; 2%nat; 3%nat]].
Definition apa_tight : list atask := [ATask 1 6 10 10 [1%nat; 2%nat]; ATask 2 6 10 10 [1%nat; 2%nat]; ATask 3 6 10 10 [1%nat; 2%nat]].

Lemma nil_ok : ok_assignment [].
Proof. intros c. cbn. split; [constructor|]. intros t Ht. exact Ht. Qed.

(** ** C40: worst fit.  It ends without an exception; the outcome is correct; without splits
    no task is split (a chunk would have to be as large as any bound); no task that is
    left over, nor a chunk of it, has room on a core of its affinity. *)
Theorem C40_worst_fit : forall iter rounds tasks with_splits pre min max_chunk, set_order iter -> Forall wf_atask tasks -> ok_assignment pre ->
  0 <= min -> enough rounds tasks ->
  returns (fun fuel => wfd iter fuel rounds tasks with_splits pre min max_chunk) (fun r =>
    correct min tasks (fun c => lookup c pre) (fst r) (fun c => lookup c (snd r)) /\
    (with_splits = false -> forall bound, correct bound tasks (fun c => lookup c pre) (fst r) (fun c => lookup c (snd r))) /\
    Forall (fun t => stuck min with_splits t (fun c => lookup c (snd r))) (fst r)).
Proof.
  intros iter rounds tasks ws pre min mc HI W HP T0 HR. assert (G : good (tasks, pre)) by (split; assumption).
  eapply tot_weaken; [exact (wfd_tot iter HI ws mc min rounds tasks pre T0 HR G)|]. intros r [H1 H2].
  split; [exact (steps_correct min _ _ (H1 min (fun _ => eq_refl)) G)|]. split; [|exact H2]. intros E b. exact (steps_correct b _ _ (H1 b ltac:(intros K; congruence)) G).
Qed.
Print Assumptions C40_worst_fit.

Example C40_worst_fit_example : Forall wf_atask apa_tight /\
  exists m, wfd (fun _ l => l) 100 100 apa_tight true [] 0 false = Ok ([], m) /\ map a_cost (lookup 1 m) = [6; 4] /\ map a_cost (lookup 2 m) = [6; 2].
Proof. split; [repeat (constructor; [unfold wf_atask; cbn; lia|]); constructor|]. eexists. split; [vm_compute; reflexivity|]. split; reflexivity. Qed.

(** ** C40: the better of two ways to split *)
Theorem C40_double_worst_fit : forall iter rounds tasks with_splits pre min, set_order iter -> Forall wf_atask tasks -> ok_assignment pre ->
  0 <= min -> enough rounds tasks ->
  returns (fun fuel => double_wfd_split iter fuel rounds tasks with_splits pre min) (fun r =>
    correct min tasks (fun c => lookup c pre) (fst r) (fun c => lookup c (snd r)) /\
    Forall (fun t => stuck min with_splits t (fun c => lookup c (snd r))) (fst r)).
Proof.
  intros iter rounds tasks ws pre min HI W HP T0 HR. assert (G : good (tasks, pre)) by (split; assumption).
  eapply tot_weaken; [exact (double_wfd_tot iter HI ws min rounds tasks pre T0 HR G)|]. intros r [H1 H2]. split; [exact (steps_correct min _ _ (H1 min (fun _ => eq_refl)) G)|exact H2].
Qed.
Print Assumptions C40_double_worst_fit.

Example C40_double_example : exists m, double_wfd_split (fun _ l => l) 100 100 apa_tight true [] 2 = Ok ([], m) /\ map a_cost (lookup 1 m ++ lookup 2 m) = [6; 2; 6; 4].
Proof. eexists. split; vm_compute; reflexivity. Qed.

(** ** C40: first fit, for tasks with distinct ids *)
Theorem C40_first_fit : forall iter tasks cores with_splits pre min, set_order iter -> Forall wf_atask tasks -> NoDup (map a_id tasks) -> ok_assignment pre -> 0 <= min ->
  returns (fun fuel => ffd iter fuel tasks cores with_splits pre min) (fun r =>
    correct min tasks (fun c => lookup c pre) (fst r) (fun c => lookup c (snd r)) /\
    (with_splits = false -> (forall bound, correct bound tasks (fun c => lookup c pre) (fst r) (fun c => lookup c (snd r))) /\
      forall t c, In t (fst r) -> In c (a_aff t) -> (match cores with Some l => In c l | None => True end) -> ~ schedulable (lookup c (snd r) ++ [t]))).
Proof.
  intros iter tasks cores ws pre min HI W N HP T0. assert (G : good (tasks, pre)) by (split; assumption).
  eapply tot_weaken; [exact (ffd_tot iter HI ws min tasks cores pre T0 G N)|]. intros r [H1 H2]. split; [exact (steps_correct min _ _ (H1 min (fun _ => eq_refl)) G)|].
  intros E. split; [intros b; exact (steps_correct b _ _ (H1 b ltac:(intros K; congruence)) G)|exact (H2 E)].
Qed.
Print Assumptions C40_first_fit.

Example C40_first_fit_example : NoDup (map a_id apa_ex) /\ Forall wf_atask apa_ex /\
  exists m, ffd (fun _ l => l) 100 apa_ex (Some [1; 2; 3]%nat) false [] 0 = Ok ([], m) /\ map a_id (lookup 1 m) = [1; 2] /\ map a_id (lookup 2 m) = [4] /\ map a_id (lookup 3 m) = [3].
Proof.
  split; [repeat (constructor; [cbn; lia|]); constructor|]. split; [repeat (constructor; [unfold wf_atask; cbn; lia|]); constructor|]. eexists. split; [vm_compute; reflexivity|]. repeat split; reflexivity.
Qed.

(** ** Finding: first fit looks up affinities by task id.  Tasks that share an id (None, if
    assign_ids was not called) are placed outside their affinity. *)
Theorem C40_refuted : exists tasks m t, Forall wf_atask tasks /\ ffd (fun _ l => l) 100 tasks None false [] 0 = Ok ([], m) /\
  In t tasks /\ In t (lookup 2 m) /\ ~ In 2%nat (a_aff t).
Proof.
  exists [ATask 0 1 10 10 [1%nat]; ATask 0 2 10 10 [2%nat]]. eexists. exists (ATask 0 1 10 10 [1%nat]). split; [repeat (constructor; [unfold wf_atask; cbn; lia|]); constructor|].
  split; [vm_compute; reflexivity|]. split; [left; reflexivity|]. split; [cbn; auto|]. cbn. intros [H|[]]. discriminate.
Qed.
Print Assumptions C40_refuted.

(** ** C40: the four combinations; distinct ids are needed unless only worst fit is used *)
Theorem C40_edf_assign : forall iter rounds first_wfd second_wfd tasks min pre_assign_small, set_order iter -> Forall wf_atask tasks ->
  (first_wfd && second_wfd = false -> NoDup (map a_id tasks)) -> 0 <= min -> enough rounds tasks ->
  returns (fun fuel => edf_assign_split iter fuel first_wfd second_wfd rounds tasks min pre_assign_small) (fun r =>
    correct min tasks (fun _ => []) (fst r) (fun c => lookup c (snd r)) /\
    (second_wfd = true -> Forall (fun t => stuck min true t (fun c => lookup c (snd r))) (fst r))).
Proof.
  intros iter rounds b1 b2 tasks min small HI W N T0 HR. eapply tot_weaken; [exact (edf_assign_tot iter HI b1 b2 rounds tasks min small T0 HR W N)|]. intros r [H1 H2].
  split; [exact (steps_correct min _ _ H1 (good_start tasks W))|exact H2].
Qed.
Print Assumptions C40_edf_assign.

Example C40_edf_assign_example : exists m, edf_assign_split (fun _ l => l) 100 false true 100 apa_tight 2 true = Ok ([], m) /\ length (lookup 1 m) = 2%nat /\ length (lookup 2 m) = 2%nat.
Proof. eexists. split; [vm_compute; reflexivity|]. split; reflexivity. Qed.

(** ** C40: pre-assignment of failures, here with worst fit without splits first and the
    better of the two splits for the rest *)
Theorem C40_preassign_failures : forall iter rounds tasks min splits1 splits2, set_order iter -> Forall wf_atask tasks -> NoDup (map a_id tasks) -> 0 <= min -> enough rounds tasks -> (length tasks < rounds)%nat ->
  returns (fun fuel => meta_preassign_failures rounds (fun ts pre => double_wfd_split iter fuel rounds ts splits1 pre min) (fun ts pre => double_wfd_split iter fuel rounds ts splits2 pre min) tasks)
    (fun r => correct min tasks (fun _ => []) (fst r) (fun c => lookup c (snd r))).
Proof.
  intros iter rounds tasks min s1 s2 HI W N T0 HR HL.
  assert (SH : forall s, safe_heuristic min (fun fuel ts pre => double_wfd_split iter fuel rounds ts s pre min) tasks).
  { intros s ts pre G ND SC. assert (HR2 : (Z.to_nat (sum_cost ts) < rounds)%nat) by (pose proof (sum_cost_nonneg ts (proj1 G)); unfold enough in HR; fold (sum_cost tasks) in HR; lia).
    eapply tot_weaken; [exact (double_wfd_tot iter HI s min rounds ts pre T0 HR2 G)|]. intros r [H1 _]. apply H1. reflexivity. }
  eapply tot_weaken; [exact (meta_paf_tot min _ _ tasks (SH s1) (SH s2) W N rounds HL)|]. intros r H. exact (steps_correct min _ _ H (good_start tasks W)).
Qed.
Print Assumptions C40_preassign_failures.

Example C40_preassign_example : NoDup (map a_id apa_tight) /\
  exists r, meta_preassign_failures 100 (fun ts pre => double_wfd_split (fun _ l => l) 100 100 ts false pre 2) (fun ts pre => double_wfd_split (fun _ l => l) 100 100 ts false pre 2) apa_tight = Ok r /\ length (fst r) = 1%nat.
Proof. split; [repeat (constructor; [cbn; lia|]); constructor|]. eexists. split; [vm_compute; reflexivity|reflexivity]. Qed.

(** ** C40: what is conserved.  The pieces of an assigned task are on cores of its affinity
    and their costs and deadlines sum to those of the task. *)
Theorem C40_conservation : forall min t ps, pieces min t ps None ->
  zsum (map (fun p => a_cost (snd p)) ps) = a_cost t /\ zsum (map (fun p => a_deadline (snd p)) ps) = a_deadline t /\
  Forall (fun p => In (fst p) (a_aff t) /\ a_period (snd p) = a_period t) ps.
Proof. exact pieces_sum. Qed.
Print Assumptions C40_conservation.

(** ** C40: at run time.  Under EDF on every core, with each piece released at the deadline of
    the piece before, every piece is complete when the next is released, and every job
    of the task by its deadline: a job never runs on two cores at once. *)
Theorem C40_run_time : forall min t ps after s sc at_ start, pieces min t ps None -> (forall c, Forall wf_atask (after c) /\ schedulable (after c)) ->
  (forall c, legal_edf (map etask_of (after c)) (s c) /\ valid_schedule (length (after c)) (s c) (sc c) /\ edf_policy (map etask_of (after c)) (s c) (sc c)) ->
  released after s ps at_ start -> finished s sc ps at_ start (fun k => start k + a_deadline t).
Proof.
  intros min t ps after s sc at_ start HP G R HR. eapply runtime; [exact G|exact R|exact HR|]. intros k. destruct (pieces_sum _ _ _ HP) as [_ [E _]]. rewrite E. reflexivity.
Qed.
Print Assumptions C40_run_time.

Definition run_t := ATask 3 6 10 10 [1%nat; 2%nat].
Definition run_ps : list (nat * atask) := [(1%nat, chunk run_t 4); (2%nat, leftover run_t 4)].
Definition run_after (c : nat) : list atask := if Nat.eqb c 1 then [chunk run_t 4] else if Nat.eqb c 2 then [leftover run_t 4] else [].
(** a job arrives every ten units; the second core gets it four units later *)
Definition run_s (c : nat) : jobseq := JobSeq (fun _ k => (10 * k + (if Nat.eqb c 2 then 4 else 0))%nat) (fun _ k => (10 * k + (if Nat.eqb c 2 then 4 else 0))%nat) (fun _ _ => 0%nat).

Example C40_run_time_example : pieces 0 run_t run_ps None /\ (forall c, Forall wf_atask (run_after c) /\ schedulable (run_after c)) /\
  (forall c, legal_edf (map etask_of (run_after c)) (run_s c)) /\ released run_after run_s run_ps [0%nat; 0%nat] (fun k => Z.of_nat (10 * k)).
Proof.
  split; [|split; [|split]].
  - apply pieces_split; [left; reflexivity|cbn; lia|cbn; lia|cbn; lia|]. apply pieces_whole. right. left. reflexivity.
  - intros c. unfold run_after. destruct (Nat.eqb c 1); [|destruct (Nat.eqb c 2)].
    + split; [constructor; [unfold wf_atask; cbn; lia|constructor]|]. apply density_criterion; [constructor; [unfold wf_atask; cbn; lia|constructor]|vm_compute; discriminate].
    + split; [constructor; [unfold wf_atask; cbn; lia|constructor]|]. apply density_criterion; [constructor; [unfold wf_atask; cbn; lia|constructor]|vm_compute; discriminate].
    + split; [constructor|]. intros t Ht. exact Ht.
  - intros c i p E k. assert (HP : pr_period p = 10 /\ pr_cost p >= 0 /\ pr_jitter p = 0).
    { unfold run_after in E. destruct (Nat.eqb c 1); [|destruct (Nat.eqb c 2)]; destruct i as [|[|i]]; cbn in E; inversion E; subst; cbn; lia. }
    destruct HP as [P1 [P2 P3]]. unfold run_s. cbn [arr rel cst]. rewrite P1, P3. destruct (Nat.eqb c 2); lia.
  - cbn [run_ps released run_after Nat.eqb nth_error run_s arr chunk leftover run_t a_deadline]. split; [reflexivity|]. split; [intros k; lia|]. split; [reflexivity|]. split; [intros k; lia|exact I].
Qed.

(** ** C42: period transformation.  For deadlines of at least the period, a job of the
    transformed task gets the cost of the task and is done by its deadline; the demand
    does not decrease.  *)
Theorem C42_transform : forall t k x, wf_atask t -> 1 <= k -> cdiv (a_cost t) k <= a_period t / k -> a_period t <= a_deadline t ->
  let t' := period_transform k t in
  wf_atask t' /\ a_cost t <= k * a_cost t' /\ k * a_period t' <= a_period t /\ (k - 1) * a_period t' + a_deadline t' <= a_deadline t /\
  a_cost t * jobs_due (etask_of t) x <= a_cost t' * jobs_due (etask_of t') x.
Proof.
  intros t k x W K F D t'. destruct (W) as [W1 [W2 W3]]. pose proof (cdiv_spec (a_cost t) k ltac:(lia)) as CS. pose proof (div_spec (a_period t) k ltac:(lia)) as PS. pose proof (div_spec (a_deadline t) k ltac:(lia)) as DS.
  split; [apply transform_wf; assumption|]. unfold t'. split; [cbn; lia|]. split; [cbn; lia|]. split; [cbn; nia|]. apply transform_dominates; try assumption. assert (1 <= cdiv (a_cost t) k) by nia. lia.
Qed.
Print Assumptions C42_transform.

Example C42_transform_example : let t := ATask 1 25 100 100 [] in cdiv (a_cost t) 3 <= a_period t / 3 /\ period_transform 3 t = ATask 1 9 33 33 [].
Proof. split; [vm_compute; discriminate|reflexivity]. Qed.

(** ** C42: meta_reduce_periods returns a correct assignment of tasks that are the given ones
    or transformations of them, here with any of the four combinations *)
Theorem C42_reduce_periods : forall iter rounds first_wfd second_wfd tasks min small candidates threshold reduce_all, set_order iter -> Forall wf_atask tasks ->
  Forall (fun t => a_period t <= a_deadline t) tasks -> NoDup (map a_id tasks) -> 0 <= min -> enough rounds tasks -> Forall (fun p => 1 <= p) candidates ->
  returns (fun fuel => meta_reduce_periods (fun ts => edf_assign_split iter fuel first_wfd second_wfd rounds ts min small) tasks candidates threshold reduce_all)
    (fun r => exists tasks', Forall2 (fun t t' => t' = t \/ exists k, 1 <= k /\ cdiv (a_cost t) k <= a_period t / k /\ t' = period_transform k t) tasks tasks' /\
      correct min tasks' (fun _ => []) (fst r) (fun c => lookup c (snd r))).
Proof.
  intros iter rounds b1 b2 tasks min small cands thr ra HI W D N T0 HR HC.
  assert (TR : forall ts, Forall2 transform_of tasks ts -> Forall wf_atask ts /\ map a_id ts = map a_id tasks /\ sum_cost ts <= sum_cost tasks).
  { clear - W D. intros ts F. induction F as [|t t' l l' H F IH]; [split; [constructor|split; [reflexivity|lia]]|]. inversion W; subst. inversion D; subst. destruct (IH H3 H5) as [I1 [I2 I3]].
    assert (K : wf_atask t' /\ a_id t' = a_id t /\ a_cost t' <= a_cost t).
    { destruct H as [->|[k [K1 [K2 ->]]]]; [split; [assumption|split; [reflexivity|lia]]|]. split; [apply transform_wf; assumption|]. split; [reflexivity|]. cbn. destruct H2. apply cdiv_le_iff; [lia|]. nia. }
    destruct K as [K1 [K2 K3]]. split; [constructor; assumption|]. split; [cbn [map]; rewrite K2, I2; reflexivity|]. unfold sum_cost in *. cbn [map zsum]. lia. }
  assert (HH : forall ts, Forall2 transform_of tasks ts -> tot (fun f => edf_assign_split iter f b1 b2 rounds ts min small) (fun x => steps min (ts, []) x)).
  { intros ts F. destruct (TR ts F) as [F1 [F2 F3]]. pose proof (sum_cost_nonneg ts F1). eapply tot_weaken; [apply (edf_assign_tot iter HI b1 b2 rounds ts min small T0); [unfold enough in HR; fold (sum_cost tasks) in HR; lia|exact F1|intros _; rewrite F2; exact N]|]. intros r [H1 _]. exact H1. }
  eapply tot_weaken; [exact (meta_rp_tot min (fun f ts => edf_assign_split iter f b1 b2 rounds ts min small) tasks cands HH HC W thr ra)|]. intros r [ts [F H]]. exists ts. split; [exact F|]. exact (steps_correct min _ _ H (good_start ts (proj1 (TR ts F)))).
Qed.
Print Assumptions C42_reduce_periods.

(** The long task can only be split after its period is reduced. *)
Definition rp_ex : list atask := [ATask 1 6 10 10 [1%nat; 2%nat]; ATask 2 6 10 10 [1%nat; 2%nat]; ATask 3 60 100 100 [1%nat; 2%nat]].
Example C42_reduce_periods_example : Forall wf_atask rp_ex /\ NoDup (map a_id rp_ex) /\
  (exists un m, edf_assign_split (fun _ l => l) 100 true true 100 rp_ex 0 false = Ok (un, m) /\ un <> []) /\
  exists m, meta_reduce_periods (fun ts => edf_assign_split (fun _ l => l) 100 true true 100 ts 0 false) rp_ex [10; 100] 0 false = Ok ([], m).
Proof.
  split; [repeat (constructor; [unfold wf_atask; cbn; lia|]); constructor|]. split; [repeat (constructor; [cbn; lia|]); constructor|].
  split; [eexists; eexists; split; [vm_compute; reflexivity|discriminate]|eexists; vm_compute; reflexivity].
Qed.

(** ** Finding: for deadlines shorter than the period the transformation is unsafe.  Two tasks
    that need 52 units by time 50 and may only use core 1 are both assigned. *)
Theorem C42_refuted : exists tasks m, Forall wf_atask tasks /\ NoDup (map a_id tasks) /\ Forall (fun t => a_aff t = [1%nat]) tasks /\
  meta_reduce_periods (fun ts => edf_assign_split (fun _ l => l) 100 true true 100 ts 0 false) tasks [10; 100] 0 false = Ok ([], m) /\ ~ schedulable tasks.
Proof.
  exists [ATask 1 10 100 50 [1%nat]; ATask 2 42 100 50 [1%nat]]. eexists. split; [repeat (constructor; [unfold wf_atask; cbn; lia|]); constructor|]. split; [repeat (constructor; [cbn; lia|]); constructor|].
  split; [repeat constructor|]. split; [vm_compute; reflexivity|]. intros H. specialize (H 50 ltac:(lia)). vm_compute in H. apply H. reflexivity.
Qed.
Print Assumptions C42_refuted.
