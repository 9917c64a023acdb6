(** C45, C46: the global fixed-priority response-time analyses of Bertogna and Guan. *)
From Coq Require Import ZArith List Bool Lia.
From Verif Require Import Base ModelTasks ModelFP ModelGFP SpecUni SpecFP SpecQPA SpecGlobal SpecGFP ProofUni ProofEDF ProofGlobal ProofGEDF ProofGEDFRta
  ProofGFP ProofGFPSound ProofGFPTop ProofGFPGuan ProofGlobalGreedy ProofGFPUni ProofGFPLeast PropFP PropGEDF.
Import ListNotations.
Open Scope Z_scope.

Lemma resp_responds : forall s sc k r h, 0 <= r -> resp s sc k r -> responds s sc (k, h) r.
Proof.
  intros s sc k r h H0 H. exists (arr s k h + Z.to_nat r)%nat. cbn [fst snd]. split; [lia|]. apply H. lia.
Qed.

Lemma res_nth : forall (res : list ganalysed) k t r, nth_error res k = Some (t, r) -> (k < length res)%nat /\ nth k res da0 = (t, r).
Proof. intros res k t r H. split; [apply nth_error_Some; congruence|]. exact (nth_error_nth res k da0 H). Qed.

(** A legal job sequence of the task set: the release and cost promises of the tasks are kept. *)
Definition glegal (ts : list gtask) (s : jobseq) : Prop := legal_edf (map (fun t => e_of (g_task t)) ts) s.
Definition g_b (ts : list gtask) (i : nat) : Z := attr (g_blocked (nth i ts dg)).
Definition g_h (ts : list gtask) (i : nat) : Z := attr (g_hpdirect (nth i ts dg)).

(** ** C45 *)

(** Every legal job sequence has a schedule of the kind the theorems speak about. *)
Theorem C45_schedules_exist : forall ts m s, Forall wf_g ts -> glegal ts s ->
  exists sc, gvalid (length ts) m s sc /\ gfp_strict (length ts) m s sc /\
    gfp_blocking (length ts) m s sc (fun _ _ => false) (fun _ _ => false) /\
    blocked_within (length ts) (fun _ _ => false) (fun _ _ => false) (g_b ts) (g_h ts).
Proof.
  intros ts m s Hw Hl. destruct (gfp_exists (ets ts) m s (wf_ets ts Hw) Hl) as [sc [H1 H2]].
  assert (E : length (ets ts) = length ts) by apply map_length. rewrite E in *. exists sc. split; [assumption|]. split; [assumption|].
  split; [apply strict_blocking; assumption|]. intros j t Hj. rewrite sumf_zero by (intros; reflexivity).
  assert (W : wf_g (nth (fst j) ts dg)) by (rewrite Forall_forall in Hw; apply Hw; apply nth_In; assumption).
  unfold g_b, g_h. destruct W as [_ [_ [_ [_ W]]]]. lia.
Qed.
Print Assumptions C45_schedules_exist.

Theorem C45_safe : forall fuel dont_use_slack (m : nat) ts res, (1 <= m)%nat -> Forall wf_g ts ->
  bert_is_schedulable fuel dont_use_slack (Z.of_nat m) ts = GDone true res ->
  map fst res = ts /\
  forall k t r, nth_error res k = Some (t, r) ->
    t_cost (g_task t) + attr (g_blocked t) <= r <= t_deadline (g_task t) /\
    forall s sc other direct, glegal ts s -> gvalid (length ts) m s sc ->
      gfp_blocking (length ts) m s sc other direct -> blocked_within (length ts) other direct (g_b ts) (g_h ts) ->
      forall h, responds s sc (k, h) r.
Proof.
  intros fuel nosl m ts res Hm Hw H. destruct (gfp_all_true _ _ _ _ H) as [E Hall]. split; [assumption|].
  intros k t r Hk. destruct (res_nth _ _ _ _ Hk) as [Hl En].
  pose proof (all_ok (bert_rta fuel nosl (Z.of_nat m)) ts res
    (fun hp t r A B C => proj1 (bert_rta_spec fuel nosl (Z.of_nat m) hp t r ltac:(lia) A B C)) Hw E (fun k Hk => proj2 (Hall k Hk))) as OK.
  assert (R : t_cost (g_task t) + attr (g_blocked t) <= r /\ ok_a (t, r)).
  { destruct (Hall k Hl) as [_ Hr]. unfold ganalysed in *. rewrite En in Hr. cbn [fst snd] in Hr.
    assert (Ft : Forall ok_a (firstn k res)).
    { apply Forall_firstn. intros i d _ Hi. rewrite (nth_indep _ d da0) by assumption. apply OK. assumption. }
    pose proof (OK k Hl) as O. rewrite En in O. destruct O as [O1 O2]. cbn [fst snd] in *.
    destruct (bert_rta_spec fuel nosl (Z.of_nat m) _ t r ltac:(lia) Ft O1 Hr) as [X1 [X2 _]]. split; assumption. }
  destruct R as [R1 [R2 R3]]. cbn [fst snd] in *. split; [lia|].
  intros s sc other direct Hs Hv Hp Hb h. apply resp_responds; [destruct R2; lia|].
  pose proof (bert_safe fuel nosl m ts res Hm Hw H s sc other direct Hs Hv Hp Hb k Hl) as G. unfold ganalysed in *. rewrite En in G. exact G.
Qed.
Print Assumptions C45_safe.

(** Without blocking: plain preemptive global fixed-priority scheduling. *)
Corollary C45_safe_strict : forall fuel dont_use_slack (m : nat) ts res, (1 <= m)%nat -> Forall wf_g ts ->
  bert_is_schedulable fuel dont_use_slack (Z.of_nat m) ts = GDone true res ->
  forall s sc, glegal ts s -> gvalid (length ts) m s sc -> gfp_strict (length ts) m s sc ->
  forall k t r, nth_error ts k = Some t -> nth_error (map snd res) k = Some r ->
  forall h, responds s sc (k, h) r /\ responds s sc (k, h) (t_deadline (g_task t)).
Proof.
  intros fuel nosl m ts res Hm Hw H s sc Hs Hv Hp k t r Ht Hr h.
  destruct (C45_safe fuel nosl m ts res Hm Hw H) as [E G].
  assert (Hk : nth_error res k = Some (t, r)).
  { rewrite <- E in Ht. rewrite nth_error_map in Ht, Hr. unfold ganalysed in *. destruct (nth_error res k) as [[t' r']|]; cbn in Ht, Hr; [congruence|discriminate Ht]. }
  destruct (G k t r Hk) as [G1 G2].
  assert (X : responds s sc (k, h) r).
  { apply G2 with (other := fun _ _ => false) (direct := fun _ _ => false); try assumption.
    - apply strict_blocking; assumption.
    - intros j u Hj. rewrite sumf_zero by (intros; reflexivity).
      assert (W : wf_g (nth (fst j) ts dg)) by (rewrite Forall_forall in Hw; apply Hw; apply nth_In; assumption).
      unfold g_b, g_h. destruct W as [_ [_ [_ [_ W]]]]. lia. }
  split; [exact X|]. destruct X as [q [Q1 Q2]]. exists q. split; [cbn [fst snd] in *; lia|assumption].
Qed.
Print Assumptions C45_safe_strict.

Theorem C45_terminates : forall dont_use_slack m ts, 1 <= m -> Forall wf_g ts ->
  exists fuel, forall fuel', (fuel <= fuel')%nat -> exists ok res, bert_is_schedulable fuel' dont_use_slack m ts = GDone ok res.
Proof.
  intros nosl m ts Hm Hw. exists (S (S (S (fold_right Nat.max 0%nat (map (fun t => Z.to_nat (t_deadline (g_task t))) ts))))).
  intros fuel Hf.
  assert (A : Forall (fun t => t_deadline (g_task t) + 1 < Z.of_nat fuel) ts).
  { rewrite Forall_forall. intros t Ht. assert (Z.to_nat (t_deadline (g_task t)) <= fold_right Nat.max 0%nat (map (fun t => Z.to_nat (t_deadline (g_task t))) ts))%nat; [|lia].
    clear -Ht. induction ts as [|x l IH]; [destruct Ht|]. cbn. destruct Ht as [->|Ht]; [lia|]. specialize (IH Ht). lia. }
  pose proof (bert_total fuel nosl m ts Hm Hw ltac:(lia) A) as G.
  destruct (bert_is_schedulable fuel nosl m ts) as [| |ok res] eqn:E; [congruence| |eauto].
  exfalso. unfold bert_is_schedulable in E. clear -E. revert E. generalize (@nil ganalysed). induction ts as [|t l IH]; intros done E; [discriminate|]. cbn [gfp_all negb] in E.
  destruct (bert_rta fuel nosl m done t); try discriminate. apply IH in E. assumption.
Qed.
Print Assumptions C45_terminates.

(** The recorded response times are exactly the least solutions of the
    recurrence; the answer False means that the next task has no solution within
    its deadline. *)
Theorem C45_least : forall fuel dont_use_slack m ts ok res, 1 <= m -> Forall wf_g ts ->
  bert_is_schedulable fuel dont_use_slack m ts = GDone ok res ->
  let known k := map (fun a => (t_cost (g_task (fst a)), t_period (g_task (fst a)),
                                if dont_use_slack : bool then t_deadline (g_task (fst a)) else snd a)) (firstn k res) in
  let rhs k t := bert_recurrence m (t_cost (g_task t)) (attr (g_blocked t)) (attr (g_hpdirect t)) (known k) in
  map fst res = firstn (length res) ts /\
  (forall k t r, nth_error res k = Some (t, r) ->
    (Z.of_nat k < m -> r = t_cost (g_task t) + attr (g_blocked t)) /\
    (m <= Z.of_nat k -> least_bound (rhs k t) (t_cost (g_task t) + attr (g_blocked t)) r) /\
    r <= t_deadline (g_task t)) /\
  (ok = true -> length res = length ts) /\
  (ok = false -> exists t, nth_error ts (length res) = Some t /\
     if Z.of_nat (length res) <? m then t_deadline (g_task t) < t_cost (g_task t) + attr (g_blocked t)
     else forall x, t_cost (g_task t) + attr (g_blocked t) <= x -> rhs (length res) t x <= x -> t_deadline (g_task t) < x).
Proof.
  intros fuel nosl m ts ok res Hm Hw H known rhs. pose proof (bert_least fuel nosl m ts ok res Hm Hw H) as [G1 [G2 [G3 G4]]].
  split; [exact G1|]. split; [exact G2|]. split; [exact G3|]. intros X. destruct (G4 X) as [t [T1 T2]]. exists t. split; [exact T1|].
  destruct (Z.of_nat (length res) <? m); [exact T2|]. unfold rhs, known. rewrite firstn_all. exact T2.
Qed.
Print Assumptions C45_least.

(** Taking slack into account accepts at least as much and never gives a larger bound. *)
Theorem C45_slack : forall fuel fuel' m ts res', 1 <= m -> Forall wf_g ts ->
  (1 <= fuel)%nat -> Forall (fun t => t_deadline (g_task t) + 1 < Z.of_nat fuel) ts ->
  bert_is_schedulable fuel' true m ts = GDone true res' ->
  exists res, bert_is_schedulable fuel false m ts = GDone true res /\
    Forall2 (fun a a' => fst a = fst a' /\ snd a <= snd a') res res'.
Proof. exact slack_dominates. Qed.
Print Assumptions C45_slack.

Definition gt0 (c p d : Z) : gtask := GTask (Task c p d) None None.
(** three tasks on two processors, the third with blocking, part of it direct *)
Definition ex45 : list gtask := [gt0 2 6 6; gt0 3 9 8; GTask (Task 4 20 15) (Some 2) (Some 1); gt0 2 30 25].

Example C45_case : Forall wf_g ex45 /\
  (exists res, bert_is_schedulable 30 false 2 ex45 = GDone true res /\ map snd res = [2; 3; 9; 6]) /\
  (exists res, bert_is_schedulable 30 true 2 ex45 = GDone true res /\ map snd res = [2; 3; 11; 9]).
Proof.
  split; [unfold ex45, gt0; repeat constructor; cbn; lia|]. split; eexists; (split; [vm_compute; reflexivity|reflexivity]).
Qed.

Example C45_reject_case : exists res, bert_is_schedulable 30 false 2 [gt0 2 4 4; gt0 2 4 4; gt0 3 6 5] = GDone false res /\ map snd res = [2; 2].
Proof. eexists. split; [vm_compute; reflexivity|reflexivity]. Qed.

(** Without the restriction to constrained deadlines the analysis is not safe. *)
Theorem C45_arbitrary_refuted : exists ts m res s sc,
  Forall (fun t => 1 <= t_cost (g_task t) <= t_period (g_task t) /\ t_period (g_task t) <= t_deadline (g_task t) /\ g_blocked t = None /\ g_hpdirect t = None) ts /\
  bert_is_schedulable 10 false (Z.of_nat m) ts = GDone true res /\
  glegal ts s /\ gvalid (length ts) m s sc /\ gfp_strict (length ts) m s sc /\
  exists k t r, nth_error res k = Some (t, r) /\ r <= t_deadline (g_task t) /\ ~ responds s sc (k, 1%nat) (t_deadline (g_task t)).
Proof.
  set (ts := [gt0 1 2 2; gt0 1 2 2; gt0 2 2 4]).
  assert (W : Forall wf_etask (map (fun t => e_of (g_task t)) ts)) by (unfold ts, gt0; cbn [map]; repeat constructor; cbn; lia).
  exists ts, 2%nat. eexists. exists (synchronous (map (fun t => e_of (g_task t)) ts)), (gfp_schedule 3 2 (synchronous (map (fun t => e_of (g_task t)) ts))).
  split; [unfold ts, gt0; repeat constructor; cbn; lia|]. split; [vm_compute; reflexivity|].
  split; [apply synchronous_legal; exact W|]. split; [apply gfp_schedule_valid|]. split.
  - apply gfp_schedule_strict. intros h k Hh. eapply (idx_le _ _ W); [apply synchronous_legal; exact W|exact Hh].
  - exists 2%nat, (gt0 2 2 4), 4. split; [vm_compute; reflexivity|]. split; [cbn; lia|]. intros [q [Q1 Q2]]. unfold gcompleted in Q2.
    assert (q <= 6)%nat as L by (revert Q1; cbn; lia). pose proof (gservice_mono (gfp_schedule 3 2 (synchronous (map (fun t => e_of (g_task t)) ts))) (2%nat, 1%nat) q 6%nat L) as M.
    revert Q2 M. cbn [fst snd]. generalize (gservice (gfp_schedule 3 2 (synchronous (map (fun t => e_of (g_task t)) ts))) (2%nat, 1%nat) q). intros z Q2 M.
    apply (Z.le_trans _ _ _ Q2) in M. revert M. vm_compute. intros M. apply M. reflexivity.
Qed.
Print Assumptions C45_arbitrary_refuted.

(** ** C46 *)
Theorem C46_safe : forall fuel (m : nat) ts res, (1 <= m)%nat -> Forall wf_g ts ->
  guan_is_schedulable fuel (Z.of_nat m) ts = GDone true res ->
  map fst res = ts /\
  forall k t r, nth_error res k = Some (t, r) ->
    t_cost (g_task t) <= r <= t_deadline (g_task t) /\
    forall s sc, glegal ts s -> gvalid (length ts) m s sc -> gfp_strict (length ts) m s sc ->
      forall h, responds s sc (k, h) r.
Proof.
  intros fuel m ts res Hm Hw H. destruct (gfp_all_true _ _ _ _ H) as [E Hall]. split; [assumption|].
  intros k t r Hk. destruct (res_nth _ _ _ _ Hk) as [Hl En].
  pose proof (all_ok (guan_rta fuel (Z.of_nat m)) ts res
    (fun hp t r A B C => proj1 (guan_rta_spec fuel (Z.of_nat m) hp t r ltac:(lia) A B C)) Hw E (fun k Hk => proj2 (Hall k Hk)) k Hl) as OK.
  unfold ganalysed in *. rewrite En in OK. destruct OK as [R2 R3]. cbn [fst snd] in *. split; [assumption|].
  intros s sc Hs Hv Hp h. apply resp_responds; [destruct R2; lia|].
  pose proof (guan_safe fuel m ts res Hm Hw H s sc Hs Hv Hp k Hl) as G. unfold ganalysed in *. rewrite En in G. exact G.
Qed.
Print Assumptions C46_safe.

Lemma guan_no_assert : forall fuel m ts done, gfp_all guan_assert (guan_rta fuel m) done ts = GAssert -> exists t, In t ts /\ t_period (g_task t) < t_deadline (g_task t).
Proof.
  intros fuel m ts. induction ts as [|t l IH]; intros done H; [discriminate|]. cbn [gfp_all] in H. destruct (guan_assert t) eqn:A; cbn [negb] in H.
  - destruct (guan_rta fuel m done t); try discriminate. destruct (IH _ H) as [y [Y1 Y2]]. exists y. split; [right; assumption|assumption].
  - exists t. split; [left; reflexivity|]. unfold guan_assert in A. apply Z.leb_gt in A. assumption.
Qed.

(** AssertionError is raised only for a deadline beyond the period. *)
Theorem C46_assertion : forall fuel m ts, guan_is_schedulable fuel m ts = GAssert ->
  exists t, In t ts /\ t_period (g_task t) < t_deadline (g_task t).
Proof. intros fuel m ts. apply guan_no_assert. Qed.
Print Assumptions C46_assertion.

(** A verdict "schedulable" never hides such a task, whatever the other parameters. *)
Theorem C46_assertion_complete : forall fuel m ts res, guan_is_schedulable fuel m ts = GDone true res ->
  Forall (fun t => t_deadline (g_task t) <= t_period (g_task t)) ts.
Proof.
  intros fuel m ts res H. destruct (gfp_all_true _ _ _ _ H) as [E Hall]. rewrite Forall_forall. intros t Ht. rewrite <- E in Ht.
  apply (In_nth _ _ dg) in Ht. destruct Ht as [k [K1 K2]]. rewrite map_length in K1. rewrite fst_nth in K2. destruct (Hall k K1) as [A _]. rewrite K2 in A.
  unfold guan_assert in A. apply Z.leb_le in A. assumption.
Qed.
Print Assumptions C46_assertion_complete.

Theorem C46_terminates : forall m ts, 1 <= m -> Forall wf_g ts ->
  exists fuel, forall fuel', (fuel <= fuel')%nat -> exists ok res, guan_is_schedulable fuel' m ts = GDone ok res.
Proof.
  intros m ts Hm Hw. exists (S (S (S (fold_right Nat.max 0%nat (map (fun t => Z.to_nat (t_deadline (g_task t))) ts))))).
  intros fuel Hf.
  assert (A : Forall (fun t => t_deadline (g_task t) + 1 < Z.of_nat fuel) ts).
  { rewrite Forall_forall. intros t Ht. assert (Z.to_nat (t_deadline (g_task t)) <= fold_right Nat.max 0%nat (map (fun t => Z.to_nat (t_deadline (g_task t))) ts))%nat; [|lia].
    clear -Ht. induction ts as [|x l IH]; [destruct Ht|]. cbn. destruct Ht as [->|Ht]; [lia|]. specialize (IH Ht). lia. }
  pose proof (guan_total fuel m ts Hm Hw ltac:(lia) A) as G.
  destruct (guan_is_schedulable fuel m ts) as [| |ok res] eqn:E; [congruence| |eauto].
  exfalso. apply guan_no_assert in E. destruct E as [t [T1 T2]]. rewrite Forall_forall in Hw. destruct (Hw t T1) as [_ [_ [_ [W _]]]]. lia.
Qed.
Print Assumptions C46_terminates.

(** The recorded response times are the least solutions of Guan's recurrence, in
    which the worst choice of at most m-1 tasks carries work in. *)
Theorem C46_least : forall fuel (m : nat) ts ok res, (1 <= m)%nat -> Forall wf_g ts ->
  guan_is_schedulable fuel (Z.of_nat m) ts = GDone ok res ->
  let known k := map (fun a => (t_cost (g_task (fst a)), t_period (g_task (fst a)), snd a)) (firstn k res) in
  let solves k t x := exists v, worst_work m (t_cost (g_task t)) x (known k) v /\ t_cost (g_task t) + v / Z.of_nat m <= x in
  map fst res = firstn (length res) ts /\
  (forall k t r, nth_error res k = Some (t, r) ->
    t_cost (g_task t) <= r <= t_deadline (g_task t) /\
    ((k < m)%nat -> r = t_cost (g_task t)) /\
    ((m <= k)%nat -> solves k t r /\ forall x, t_cost (g_task t) <= x -> solves k t x -> r <= x)) /\
  (ok = true -> length res = length ts) /\
  (ok = false -> exists t, nth_error ts (length res) = Some t /\
     if (length res <? m)%nat then t_deadline (g_task t) < t_cost (g_task t)
     else forall x, t_cost (g_task t) <= x -> solves (length res) t x -> t_deadline (g_task t) < x).
Proof.
  intros fuel m ts ok res Hm Hw H known solves. pose proof (guan_least fuel m ts ok res Hm Hw H) as [G1 [G2 [G3 G4]]].
  assert (Hwr : Forall wf_g (map fst res)).
  { rewrite G1. apply Forall_firstn. intros i d _ Hi. rewrite Forall_forall in Hw. apply Hw. apply nth_In. assumption. }
  assert (Fok : Forall ok_a res).
  { rewrite Forall_forall in *. intros [t r] Ha. destruct (In_nth_error _ _ Ha) as [k Hk]. destruct (G2 k t r Hk) as [X1 [X2 X3]].
    assert (W : wf_g t) by (apply Hwr; exact (in_map fst res (t, r) Ha)). split; [assumption|]. cbn [fst snd].
    destruct (Z.lt_ge_cases (Z.of_nat k) (Z.of_nat m)) as [L|L]; [rewrite (X1 L) in *; lia|]. destruct (X2 L) as [X4 _]. lia. }
  assert (Fokn : forall k, Forall ok_a (firstn k res)).
  { intros k. rewrite Forall_forall in *. intros a Ha. apply Fok. eapply ProofGlobalGreedy.firstn_in. exact Ha. }
  assert (S1 : forall k t x, wf_g t -> t_cost (g_task t) <= x -> (solves k t x <-> guan_demand (Z.of_nat m) (firstn k res) t x <= x)).
  { intros k t x Wt Hx. assert (0 <= x) as Hx0 by (destruct Wt; lia). pose proof (total_worst m (g_task t) (firstn k res) x Hm (Fokn k) Hx0) as TW.
    change (map (triple false) (firstn k res)) with (known k) in TW. unfold solves, guan_demand. split.
    - intros [v [[[c [V1 [V2 V3]]] V4] V5]]. destruct TW as [[c' [T1 [T2 T3]]] T4].
      assert (Ev : v = total_interference (g_task t) (firstn k res) (Z.of_nat m) x); [|rewrite <- Ev; exact V5].
      pose proof (V4 c' T1 T2). pose proof (T4 c V1 V2). lia.
    - intros Y. eexists. split; [exact TW|exact Y]. }
  split; [exact G1|]. split; [|split; [exact G3|]].
  - intros k t r Hk. destruct (G2 k t r Hk) as [X1 [X2 X3]].
    assert (Wt : wf_g t) by (rewrite Forall_forall in Hwr; apply Hwr; exact (in_map fst res (t, r) (nth_error_In _ _ Hk))).
    assert (Or : ok_a (t, r)) by (rewrite Forall_forall in Fok; apply Fok; eapply nth_error_In; exact Hk). destruct Or as [_ Or]. cbn [fst snd] in Or.
    split; [assumption|]. split; [intros L; apply X1; lia|]. intros L. destruct (X2 ltac:(lia)) as [Y1 [Y2 Y3]]. split.
    + apply S1; assumption.
    + intros x Hx Sx. apply Y3; [assumption|]. apply S1; assumption.
  - intros X. destruct (G4 X) as [t [T1 T2]]. exists t. split; [exact T1|].
    assert (Wt : wf_g t) by (rewrite Forall_forall in Hw; apply Hw; eapply nth_error_In; exact T1).
    destruct (Z.ltb_spec (Z.of_nat (length res)) (Z.of_nat m)) as [L|L].
    + assert ((length res <? m)%nat = true) as -> by (apply Nat.ltb_lt; lia). exact T2.
    + assert ((length res <? m)%nat = false) as -> by (apply Nat.ltb_ge; lia). intros x Hx Sx. apply T2; [assumption|].
      apply (S1 (length res) t x Wt Hx) in Sx. rewrite firstn_all in Sx. exact Sx.
Qed.
Print Assumptions C46_least.

(** Guan's analysis accepts whatever Bertogna's accepts, with response times no larger. *)
Theorem C46_dominates : forall fuel fuel' m ts res', 1 <= m -> Forall wf_g ts -> Forall (fun t => 1 <= t_cost (g_task t)) ts ->
  (1 <= fuel)%nat -> Forall (fun t => t_deadline (g_task t) + 1 < Z.of_nat fuel) ts ->
  bert_is_schedulable fuel' false m ts = GDone true res' ->
  exists res, guan_is_schedulable fuel m ts = GDone true res /\
    Forall2 (fun a a' => fst a = fst a' /\ snd a <= snd a') res res'.
Proof. exact guan_dominates. Qed.
Print Assumptions C46_dominates.

(** fp.is_schedulable on any number of processors: the uniprocessor analysis on
    one, Guan's on more; in both cases the response times are safe. *)
Theorem C46_fp_safe : forall fuel (m : nat) ts res, (1 <= m)%nat -> Forall wf_g ts -> Forall (fun t => 1 <= t_cost (g_task t)) ts ->
  fp_is_schedulable fuel (Z.of_nat m) ts = GDone true res ->
  map fst res = ts /\
  forall s sc, glegal ts s -> gvalid (length ts) m s sc -> gfp_strict (length ts) m s sc ->
  forall k t r, nth_error res k = Some (t, r) -> r <= t_deadline (g_task t) /\ forall h, responds s sc (k, h) r.
Proof.
  intros fuel m ts res Hm Hw HC H. unfold fp_is_schedulable in H. destruct (Z.eqb_spec (Z.of_nat m) 1) as [E|E].
  - assert (m = 1%nat) by lia. subst m. unfold uni_result in H. change (Z.of_nat 1) with 1 in H.
    destruct (bound_response_times fuel 1 (map uni_task ts)) as [| |[b done]] eqn:B; try discriminate. injection H as -> <-.
    destruct (uni_sound fuel ts true done Hw HC B) as [U1 U2]. specialize (U1 eq_refl).
    destruct (PropFP.C10_rta_within_deadline fuel 1 (map uni_task ts) done) as [D1 D2]; [apply Forall_map; apply Forall_forall; reflexivity|assumption|].
    assert (N : forall k t r, nth_error (combine ts (map snd done)) k = Some (t, r) -> nth_error ts k = Some t /\ exists t', nth_error done k = Some (t', r)).
    { clear. revert done. induction ts as [|x l IH]; intros done k t r Hk; [destruct k; discriminate|]. destruct done as [|[t' r'] done]; [destruct k; discriminate|].
      destruct k; cbn in *; [injection Hk as -> ->; split; [reflexivity|eauto]|]. apply IH. exact Hk. }
    split.
    + clear -U1. revert done U1. induction ts as [|x l IH]; intros done U; [reflexivity|]. destruct done as [|d done]; [discriminate|]. cbn in *. f_equal. apply IH. lia.
    + intros s sc Hs Hv Hp k t r Hk. destruct (N k t r Hk) as [Ht [t' Hd]]. destruct (D2 k t' r Hd) as [E1 E2].
      rewrite nth_error_map, Ht in E1. cbn in E1. injection E1 as <-. split; [exact E2|]. intros h. eapply U2; eassumption.
  - destruct (C46_safe fuel m ts res Hm Hw H) as [G1 G2]. split; [exact G1|]. intros s sc Hs Hv Hp k t r Hk. destruct (G2 k t r Hk) as [X1 X2].
    split; [lia|]. intros h. apply X2; assumption.
Qed.
Print Assumptions C46_fp_safe.

Theorem C46_dispatch : forall fuel m ts,
  (m <> 1 -> fp_is_schedulable fuel m ts = guan_is_schedulable fuel m ts) /\
  (m = 1 -> forall b res, fp_is_schedulable fuel m ts = GDone b res <->
     exists done, bound_response_times fuel 1 (map (fun t => FPTask (g_task t) (g_blocked t) None None None) ts) = Accepted (b, done) /\ res = combine ts (map snd done)).
Proof.
  intros fuel m ts. unfold fp_is_schedulable. split.
  - intros H. destruct (Z.eqb_spec m 1); [contradiction|reflexivity].
  - intros -> b res. change (fun t => FPTask (g_task t) (g_blocked t) None None None) with uni_task. cbn [Z.eqb]. change (1 =? 1) with true. cbv iota. unfold uni_result.
    destruct (bound_response_times fuel 1 (map uni_task ts)) as [| |[b' done]].
    + split; [discriminate|]. intros [d [H _]]. discriminate.
    + split; [discriminate|]. intros [d [H _]]. discriminate.
    + split; [intros H; injection H as -> <-; eauto|]. intros [d [H1 ->]]. injection H1 as -> ->. reflexivity.
Qed.
Print Assumptions C46_dispatch.

Definition ex46 : list gtask := [gt0 3 6 6; gt0 4 9 8; gt0 5 20 17; gt0 3 30 28].

(** Guan's bounds are smaller here; on one processor rta.py is used. *)
Example C46_case : Forall wf_g ex46 /\
  (exists res, bert_is_schedulable 30 false 2 ex46 = GDone true res /\ map snd res = [3; 4; 10; 11]) /\
  (exists res, guan_is_schedulable 30 2 ex46 = GDone true res /\ map snd res = [3; 4; 9; 11]) /\
  (exists res, fp_is_schedulable 30 1 [gt0 1 6 6; gt0 3 9 8; gt0 4 20 15] = GDone true res /\ map snd res = [1; 4; 9]) /\
  (exists res, fp_is_schedulable 30 1 [gt0 1 6 6; GTask (Task 3 9 8) (Some 2) None] = GDone true res /\ map snd res = [1; 6]) /\
  guan_is_schedulable 30 2 [gt0 1 2 3] = GAssert.
Proof.
  split; [unfold ex46, gt0; repeat constructor; cbn; lia|]. repeat split; try (eexists; split; [vm_compute; reflexivity|reflexivity]).
Qed.
