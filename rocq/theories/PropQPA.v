(** Property theorems C11-C14: quick processor-demand analysis and C=D
    splitting (native/src/edf/qpa.cpp). *)
From Coq Require Import ZArith QArith List Bool Lia.
From Verif Require Import Base ModelNative ModelQPA SpecUni SpecQPA ProofUni ProofEDF ProofQPA.
Import ListNotations.
Open Scope Z_scope.

(** What the specification sees of a native task. *)
Definition etask_of (t : ntask) : etask := ETask (n_wcet t) (n_period t) (n_deadline t).

(** Tasks the API can represent: positive parameters, machine-word deadline, no
    self-suspension. *)
Definition qpa_task (t : ntask) : Prop :=
  1 <= n_wcet t /\ 1 <= n_period t /\ 1 <= n_deadline t <= 18446744073709551615 /\ n_susp t = 0.

Lemma qpa_task_good : forall ts, Forall qpa_task ts -> Forall good ts /\ ulong_ok ts /\ Forall (fun t => n_susp t = 0) ts.
Proof.
  intros ts H. repeat split; (eapply Forall_impl; [|exact H]); intros t [? [? [? ?]]]; unfold good, ULONG_MAX; repeat split; lia.
Qed.

Lemma criterion_violation : forall ts, criterion (map etask_of ts) <-> forall x, ~ violation ts x.
Proof.
  intros ts. assert (E : forall x, zsum (map (fun e => e_cost e * jobs_due e x) (map etask_of ts)) = h ts x).
  { intros x. rewrite map_map. unfold h. apply zsum_map_ext. intros t Ht. unfold bound_demand, jobs_due, etask_of. cbn.
    destruct (Z.ltb_spec x (n_deadline t)); destruct (Z.ltb_spec (x - n_deadline t) 0); lia. }
  unfold criterion, violation. split.
  - intros H x [H1 H2]. specialize (H x H1). rewrite E in H. lia.
  - intros H x Hx. rewrite E. destruct (Z.le_gt_cases (h ts x) x); [assumption|]. exfalso. apply (H x). split; assumption.
Qed.

Lemma wf_of_qpa : forall ts, Forall qpa_task ts -> Forall wf_etask (map etask_of ts).
Proof.
  intros ts H. apply Forall_map. eapply Forall_impl; [|exact H]. intros t [? [? [? ?]]]. unfold wf_etask, etask_of. cbn. lia.
Qed.

Lemma qpa_exact_spec : forall ts, Forall qpa_task ts ->
  exists N, forall fuel, (N <= fuel)%nat -> exists b, qpa_is_schedulable fuel ts = Some b /\ (b = true <-> criterion (map etask_of ts)).
Proof.
  intros ts H. destruct (qpa_task_good ts H) as [H1 [H2 H3]]. exists (S (Z.to_nat (prod ts))). intros fuel Hf.
  pose proof (prod_pos ts H1).
  destruct (qpa_exact ts fuel H1 H2 H3 ltac:(lia)) as [b [E Hb]]. exists b. split; [assumption|].
  rewrite criterion_violation. assumption.
Qed.

(** C11: the test terminates and accepts exactly the task sets whose demand in
    every interval is at most the interval's length. *)
Theorem C11_qpa_exact : forall ts, Forall qpa_task ts ->
  exists N, forall fuel, (N <= fuel)%nat ->
  exists b, qpa_is_schedulable fuel ts = Some b /\ (b = true <-> criterion (map etask_of ts)).
Proof. exact qpa_exact_spec. Qed.
Print Assumptions C11_qpa_exact.

Lemma loop_stable : forall f ts demand m n r, qpa_loop f demand ts m n = Some r -> forall g, (f <= g)%nat -> qpa_loop g demand ts m n = Some r.
Proof.
  induction f as [|f IH]; intros ts demand m n r H g Hg; cbn in H; [discriminate|]. destruct g as [|g]; [lia|]. cbn.
  destruct ((demand n <=? n) && (m <? demand n)); [|assumption]. apply IH with (g := g) in H; [assumption|lia].
Qed.

Lemma busy_stable : forall f ts c r, busy_loop f ts c = Some r -> forall g, (f <= g)%nat -> busy_loop g ts c = Some r.
Proof.
  induction f as [|f IH]; intros ts c r H g Hg; cbn in H; [discriminate|]. destruct g as [|g]; [lia|]. cbn.
  destruct (negb (c =? busy_step ts c)); [|assumption]. apply IH with (g := g) in H; [assumption|lia].
Qed.

Lemma max_interval_stable : forall f ts u r, get_max_interval f ts u = Some r -> forall g, (f <= g)%nat -> get_max_interval g ts u = Some r.
Proof.
  intros f ts u r H g Hg. unfold get_max_interval, edf_busy_interval in *.
  destruct (busy_loop f ts (fold_left (fun i t => i + n_wcet t) ts 0)) eqn:E; [|discriminate].
  rewrite (busy_stable _ _ _ _ E g Hg). assumption.
Qed.

Lemma qpa_stable : forall f ts b, qpa_is_schedulable f ts = Some b -> forall g, (f <= g)%nat -> qpa_is_schedulable g ts = Some b.
Proof.
  intros f ts b H g Hg. unfold qpa_is_schedulable in *.
  destruct (negb (has_no_suspending ts && has_only_feasible ts)); [assumption|].
  destruct (qlt_bool 1 (ns_util ts)); [assumption|].
  destruct (get_max_interval f ts (ns_util ts)) as [M|] eqn:E; [|discriminate].
  rewrite (max_interval_stable _ _ _ _ E g Hg).
  destruct (qpa_loop f (ns_bound_demand ts) ts (min_relative_deadline ts) (get_largest_testpoint ts M)) as [[i d]|] eqn:E2; [|discriminate].
  rewrite (loop_stable _ _ _ _ _ _ E2 g Hg). assumption.
Qed.

Lemma qpa_verdict : forall ts fuel b, Forall qpa_task ts -> qpa_is_schedulable fuel ts = Some b ->
  (b = true <-> criterion (map etask_of ts)).
Proof.
  intros ts fuel b H E. destruct (qpa_exact_spec ts H) as [N HN].
  destruct (HN (Nat.max N fuel) ltac:(lia)) as [b' [E' Hb]].
  rewrite (qpa_stable _ _ _ E (Nat.max N fuel) ltac:(lia)) in E'. inv E'. assumption.
Qed.

Lemma qpa_sound : forall ts fuel, Forall qpa_task ts -> qpa_is_schedulable fuel ts = Some true ->
  forall s sc, legal_edf (map etask_of ts) s -> valid_schedule (length ts) s sc -> edf_policy (map etask_of ts) s sc ->
  forall j, (fst j < length ts)%nat -> meets (map etask_of ts) s sc j.
Proof.
  intros ts fuel H E s sc Hl Hv Hp j Hj. apply (qpa_verdict _ _ _ H) in E. 
  rewrite <- (map_length etask_of) in Hv, Hj.
  apply edf_sound; try assumption. apply wf_of_qpa. assumption. apply E. reflexivity.
Qed.

Lemma violation_of_not : forall ts, Forall qpa_task ts -> ~ criterion (map etask_of ts) -> exists x, violation ts x.
Proof.
  intros ts H Hn. destruct (qpa_task_good ts H) as [H1 [H2 H3]].
  destruct (has_only_feasible ts) eqn:Ef.
  - destruct (Z.lt_ge_cases (prod ts) (scaled (prod ts) ts)) as [G|G]; [apply over_utilized_violation; assumption|].
    assert (Hu : (ns_util ts <= 1)%Q) by (apply util_le_1; assumption).
    destruct (qpa_search ts (S (Z.to_nat (prod ts))) H1 H2 Hu) as [M [i [d [_ [_ [_ [_ Hc]]]]]]].
    { pose proof (prod_pos ts H1). lia. }
    destruct Hc as [[_ Hc]|[_ Hc]].
    + exfalso. apply Hn. apply criterion_violation. assumption.
    + exists i. assumption.
  - apply infeasible_violation; try assumption.
    + apply forallb_forall. intros t Ht. rewrite Forall_forall in H3. unfold n_suspending. rewrite (H3 t Ht). reflexivity.
    + eapply Forall_impl; [|exact H3]. intros ? E. rewrite E. lia.
Qed.

Lemma qpa_reject : forall ts fuel, Forall qpa_task ts -> qpa_is_schedulable fuel ts = Some false ->
  legal_edf (map etask_of ts) (synchronous (map etask_of ts)) /\
  forall sc, valid_schedule (length ts) (synchronous (map etask_of ts)) sc ->
  exists j, (fst j < length ts)%nat /\ ~ meets (map etask_of ts) (synchronous (map etask_of ts)) sc j.
Proof.
  intros ts fuel H E. split; [apply synchronous_legal, wf_of_qpa; assumption|]. intros sc Hv.
  assert (Hn : ~ criterion (map etask_of ts)) by (intro F; apply (qpa_verdict _ _ _ H E) in F; discriminate).
  destruct (violation_of_not ts H Hn) as [x [Hx1 Hx2]].
  rewrite <- (map_length etask_of) in Hv. rewrite <- (map_length etask_of ts).
  apply (some_miss (map etask_of ts) sc x); try assumption.
  - apply wf_of_qpa. assumption.
  - rewrite map_map. erewrite zsum_map_ext; [exact Hx2|]. intros t Ht. unfold bound_demand, jobs_due, etask_of. cbn.
    destruct (Z.ltb_spec x (n_deadline t)); destruct (Z.ltb_spec (x - n_deadline t) 0); lia.
Qed.

(** C12: with an accepted task set every job of every EDF schedule of every
    legal job sequence completes by its deadline. *)
Theorem C12_qpa_sound : forall ts fuel, Forall qpa_task ts -> qpa_is_schedulable fuel ts = Some true ->
  forall s sc, legal_edf (map etask_of ts) s -> valid_schedule (length ts) s sc -> edf_policy (map etask_of ts) s sc ->
  forall j, (fst j < length ts)%nat -> meets (map etask_of ts) s sc j.
Proof. exact qpa_sound. Qed.
Print Assumptions C12_qpa_sound.

(** C13: with a rejected task set the synchronous periodic job sequence is legal
    and every schedule of it, whatever its policy, misses a deadline. *)
Theorem C13_qpa_reject_infeasible : forall ts fuel, Forall qpa_task ts -> qpa_is_schedulable fuel ts = Some false ->
  legal_edf (map etask_of ts) (synchronous (map etask_of ts)) /\
  forall sc, valid_schedule (length ts) (synchronous (map etask_of ts)) sc ->
  exists j, (fst j < length ts)%nat /\ ~ meets (map etask_of ts) (synchronous (map etask_of ts)) sc j.
Proof. exact qpa_reject. Qed.
Print Assumptions C13_qpa_reject_infeasible.

Lemma split_criterion : forall ts c T, 0 < c -> 1 <= T ->
  (criterion (map etask_of ts ++ [ETask c T c]) <-> forall x, ~ violation (ts ++ [split_task c T]) x).
Proof.
  intros. rewrite <- criterion_violation. rewrite map_app. cbn [map]. unfold etask_of at 3.
  destruct (split_fields c T ltac:(lia)) as [-> [-> ->]]. reflexivity.
Qed.

Lemma split_spec : forall ts wcet period, Forall qpa_task ts -> criterion (map etask_of ts) ->
  1 <= period -> 0 <= wcet <= 18446744073709551615 ->
  exists N, forall fuel, (N <= fuel)%nat ->
  exists c, get_max_C_equal_D_cost fuel ts wcet period = Some c /\ 0 <= c <= wcet /\
    (0 < c -> criterion (map etask_of ts ++ [ETask c period c])) /\
    (forall c', c < c' <= wcet -> ~ criterion (map etask_of ts ++ [ETask c' period c'])).
Proof.
  intros ts wcet T H Hc HT Hw. destruct (qpa_task_good ts H) as [H1 [H2 H3]].
  exists (S (Z.to_nat (prod ts * T + wcet))). intros fuel Hf.
  pose proof (prod_pos ts H1).
  destruct (split_exact ts wcet T fuel H1 H2 HT ltac:(unfold ULONG_MAX; lia)) as [r [E [Hr [A1 A2]]]]; try nia.
  - apply criterion_violation. assumption.
  - exists r. split; [assumption|]. split; [assumption|]. split.
    + intros G. apply split_criterion; try lia. apply A1. assumption.
    + intros c' Hc' F. rewrite split_criterion in F by lia. destruct (A2 c' Hc') as [x Hx]. apply (F x Hx).
Qed.

(** C14: the returned budget is feasible and no larger one is. *)
Theorem C14_split_maximal : forall ts wcet period, Forall qpa_task ts -> criterion (map etask_of ts) ->
  1 <= period -> 0 <= wcet <= 18446744073709551615 ->
  exists N, forall fuel, (N <= fuel)%nat ->
  exists c, get_max_C_equal_D_cost fuel ts wcet period = Some c /\ 0 <= c <= wcet /\
    (0 < c -> criterion (map etask_of ts ++ [ETask c period c])) /\
    (forall c', c < c' <= wcet -> ~ criterion (map etask_of ts ++ [ETask c' period c'])).
Proof. exact split_spec. Qed.
Print Assumptions C14_split_maximal.

(** Concrete cases *)
Definition qt (c p d : Z) : ntask := NTask c p d d 0 0.
Definition ex_ok : ntaskset := [qt 2 6 5; qt 2 8 7; qt 3 12 20].
Definition ex_bad : ntaskset := [qt 2 6 3; qt 3 8 4; qt 1 12 20].

Example C11_case : Forall qpa_task ex_ok /\ qpa_is_schedulable 100 ex_ok = Some true /\
  Forall qpa_task ex_bad /\ qpa_is_schedulable 100 ex_bad = Some false /\ (ns_util ex_bad < 1)%Q.
Proof. repeat split; try (repeat constructor; cbn; lia); vm_compute; reflexivity. Qed.

Example C12_case : exists s sc, legal_edf (map etask_of ex_ok) s /\ valid_schedule (length ex_ok) s sc /\
  edf_policy (map etask_of ex_ok) s sc /\ (cst s 2 0 = 3)%nat.
Proof.
  assert (Hwf : Forall wf_etask (map etask_of ex_ok)) by (apply wf_of_qpa; apply C11_case).
  exists (synchronous (map etask_of ex_ok)), (edf_schedule (map etask_of ex_ok) (synchronous (map etask_of ex_ok))).
  pose proof (synchronous_legal _ Hwf) as Hl. destruct (edf_schedule_ok _ _ Hwf Hl) as [H1 H2].
  split; [exact Hl|]. split; [exact H1|]. split; [exact H2|reflexivity].
Qed.

Example C13_case : exists sc, valid_schedule (length ex_bad) (synchronous (map etask_of ex_bad)) sc.
Proof.
  assert (Hwf : Forall wf_etask (map etask_of ex_bad)) by (apply wf_of_qpa; apply C11_case).
  exists (edf_schedule (map etask_of ex_bad) (synchronous (map etask_of ex_bad))).
  apply (edf_schedule_ok _ _ Hwf (synchronous_legal _ Hwf)).
Qed.

Example C14_case : get_max_C_equal_D_cost 400 ex_ok 5 20 = Some 3 /\
  get_max_C_equal_D_cost 400 [qt 2 6 6; qt 2 8 8] 7 20 = Some 4.
Proof. split; vm_compute; reflexivity. Qed.
