(** Theorems for C38 and C43: the response-time bounds of schedcat/sched/edf/gel_pl.py,
    native/src/edf/gel_pl.cpp and schedcat/sched/edf/da.py. *)
From Coq Require Import ZArith QArith Qround Lqa List Bool Lia.
From Verif Require Import Base SpecUni SpecQPA SpecGlobal SpecTardiness ModelTasks ModelTardiness ProofTasks
  ProofTardiness ProofTardinessExact ProofTardinessSafe ProofTardinessTop ProofTardinessNec ProofTardinessDA.
Import ListNotations.
Open Scope Z_scope.

Lemma response_bounds_inv : forall fuel (m : nat) ts pps rounds d,
  compute_response_bounds fuel (Z.of_nat m) ts pps rounds = GelOk d ->
  has_bounded_tardiness (Z.of_nat m) ts = true /\ exists apps s, analysis_pps pps = Some apps /\
    gel_s fuel (Z.of_nat m) ts apps rounds = Some s /\
    d_bounds d = map (fun p => gel_task_bound (Z.of_nat m) s (fst p) (snd p)) (combine ts apps).
Proof.
  intros fuel m ts pps rounds d E. unfold compute_response_bounds in E.
  destruct (has_bounded_tardiness (Z.of_nat m) ts) eqn:Hb; cbn [negb] in E; [|discriminate]. split; [reflexivity|].
  destruct (analysis_pps pps) as [apps|]; [|discriminate]. destruct (gel_s fuel (Z.of_nat m) ts apps rounds) as [s|] eqn:Es; [|discriminate].
  inversion E; subst d. exists apps, s. repeat split. exact Es.
Qed.

Lemma response_bounds_safe : forall fuel (m : nat) ts pps rounds d,
  (1 <= m)%nat -> Forall rt_task ts -> length pps = length ts ->
  compute_response_bounds fuel (Z.of_nat m) ts pps rounds = GelOk d ->
  length (d_bounds d) = length ts /\ gel_responses (map cp_of ts) pps m (d_bounds d).
Proof.
  intros fuel m ts pps rounds d Hm Hw Hlen E. destruct (response_bounds_inv _ _ _ _ _ _ E) as [Hb [apps [s [Ea [Es Ed]]]]].
  destruct (bounded_srt _ _ Hw Hb) as [Hts HU]. destruct (apps_spec pps apps Ea) as [c [Ec Hn]].
  assert (Hla : length apps = length ts) by (rewrite Ec, map_length; exact Hlen). rewrite Ed. split.
  - rewrite map_length, combine_length, Hla. apply Nat.min_id.
  - apply (compliant_safe ts pps apps m s (gel_task_bound (Z.of_nat m) s) Hts Hlen Hm HU Ea).
    + exact (c_gel_s ts apps m Hts Hla Hn Hm HU fuel rounds s Es).
    + intros i _. exact (bound_ge ts apps m s i).
Qed.

(** ** Safety.  For any priority points, both for the exact algorithm (rounds = 0)
    and for the binary search, no job responds later than the bound of its
    task, however the jobs arrive, execute and win ties. *)
Theorem C38_gel_safe : forall fuel (m : nat) ts pps rounds d,
  (1 <= m)%nat -> Forall rt_task ts -> length pps = length ts -> has_bounded_tardiness (Z.of_nat m) ts = true ->
  compute_response_details fuel (Z.of_nat m) ts pps rounds = GelOk d ->
  length (d_bounds d) = length ts /\ gel_responses (map cp_of ts) pps m (d_bounds d).
Proof.
  intros fuel m ts pps rounds d Hm Hw Hlen Hb E. unfold compute_response_details in E.
  destruct ((Z.of_nat m =? 1) && forallb _ (combine ts pps))%bool eqn:Es.
  - apply andb_true_iff in Es. destruct Es as [E1 E2]. apply Z.eqb_eq in E1. assert (m = 1)%nat by lia. subst m. inversion E; subst d. cbn [d_bounds].
    split; [apply map_length|]. destruct (bounded_srt _ _ Hw Hb) as [Hts HU]. apply single_safe; try assumption.
  - eapply response_bounds_safe; eassumption.
Qed.
Print Assumptions C38_gel_safe.

Definition gel_ex : taskset := [Task 2 3 3; Task 2 3 3; Task 2 3 3].
Definition gel_ex2 : taskset := [Task 1 2 2; Task 3 7 7; Task 3 7 7; Task 4 9 5].

Example C38_gel_safe_example :
  compute_response_details 10 2 gel_ex2 [2; 7; 7; 5] 0 <> GelNone /\
  (exists d, compute_response_details 10 2 gel_ex [3; 3; 3] 0 = GelOk d /\ d_bounds d = [5; 5; 5]) /\
  (exists d, compute_response_details 10 2 gel_ex2 [2; 7; 7; 5] 0 = GelOk d /\ d_bounds d = [5; 11; 11; 10]) /\
  (exists d, compute_response_details 10 2 gel_ex2 [2; 7; 7; 5] 1 = GelOk d /\ d_bounds d = [7; 13; 13; 11]) /\
  (exists d, compute_response_details 10 1 [Task 1 2 2; Task 2 4 4] [2; 4] 0 = GelOk d /\ d_bounds d = [2; 4]) /\
  has_bounded_tardiness 2 gel_ex = true /\ has_bounded_tardiness 2 gel_ex2 = true /\ Forall rt_task gel_ex2.
Proof.
  split; [vm_compute; discriminate|]. do 4 (split; [eexists; split; vm_compute; reflexivity|]). split; [reflexivity|]. split; [reflexivity|].
  repeat constructor; cbn; lia.
Qed.

(** schedules meeting the hypotheses exist for all task sets and priority points *)
Example C38_schedule_example : forall pps, exists s sc,
  legal_seq (map (fun cp => Promise (fst cp) (snd cp) 0) (map cp_of gel_ex2)) s /\ gvalid (length (map cp_of gel_ex2)) 2 s sc /\ gel pps (length (map cp_of gel_ex2)) 2 s sc /\ cst s 3 7 = 4%nat.
Proof.
  intros pps. assert (Hw : Forall rt_task gel_ex2) by (repeat constructor; cbn; lia). exists (periodic gel_ex2), (gel_schedule gel_ex2 pps 2).
  destruct (gel_schedule_ok gel_ex2 pps 2 Hw) as [H1 H2]. split; [apply periodic_legal; exact Hw|]. split; [exact H1|]. split; [exact H2|reflexivity].
Qed.

(** The result None is exact: there are response-time bounds at all if and only
    if has_bounded_tardiness holds. *)
Theorem C38_bounded_exact : forall (m : nat) ts pps, (1 <= m)%nat -> Forall rt_task ts -> length pps = length ts ->
  (has_bounded_tardiness (Z.of_nat m) ts = true <->
   exists bounds, length bounds = length ts /\ gel_responses (map cp_of ts) pps m bounds).
Proof.
  intros m ts pps Hm Hw Hlen. split.
  - intros Hb. destruct ts as [|t ts].
    + exists []. split; [reflexivity|]. intros s sc _ _ _ j b Hj. cbn in Hj. lia.
    + destruct pps as [|a r]; [discriminate|].
      destruct (bounded_srt _ _ Hw Hb) as [Hts HU]. destruct (analysis_pps (a :: r)) as [apps|] eqn:Ea; [|discriminate].
      destruct (apps_spec _ apps Ea) as [c [Ec Hn]]. assert (Hla : length apps = length (t :: ts)) by (rewrite Ec, map_length; exact Hlen).
      destruct (response_bounds_safe 0 m (t :: ts) (a :: r) 0 (Details (map (fun p => gel_task_bound (Z.of_nat m) (compute_exact_s (Z.of_nat m)
        (Qceiling (ts_utilization (t :: ts) None)) (qsum (gel_S (t :: ts) apps)) (gel_lines (Z.of_nat m) (t :: ts) apps)) (fst p) (snd p)) (combine (t :: ts) apps))
        (gel_S (t :: ts) apps) (values_at (compute_exact_s (Z.of_nat m)
        (Qceiling (ts_utilization (t :: ts) None)) (qsum (gel_S (t :: ts) apps)) (gel_lines (Z.of_nat m) (t :: ts) apps)) (gel_lines (Z.of_nat m) (t :: ts) apps)))) as [H1 H2]; try assumption.
      * unfold compute_response_bounds. rewrite Hb. cbn [negb]. rewrite Ea. reflexivity.
      * eexists. split; [exact H1|exact H2].
  - intros [bounds [Hl H]]. exact (overload ts pps bounds m Hw Hl H).
Qed.
Print Assumptions C38_bounded_exact.

Example C38_bounded_exact_example : has_bounded_tardiness 2 gel_ex2 = true /\ has_bounded_tardiness 2 (Task 2 3 3 :: gel_ex) = false /\
  has_bounded_tardiness 2 [Task 4 3 3] = false.
Proof. repeat split. Qed.

(** ** Termination: with enough fuel the binary search always answers; the
    result is None exactly for unbounded tardiness. *)
Theorem C38_gel_total : forall (m : nat) ts pps, (1 <= m)%nat -> Forall rt_task ts -> length pps = length ts -> ts <> [] ->
  exists N, forall fuel rounds, (N <= fuel)%nat ->
    if has_bounded_tardiness (Z.of_nat m) ts
    then exists d, compute_response_bounds fuel (Z.of_nat m) ts pps rounds = GelOk d
    else compute_response_bounds fuel (Z.of_nat m) ts pps rounds = GelNone.
Proof.
  intros m ts pps Hm Hw Hlen Hne. destruct (has_bounded_tardiness (Z.of_nat m) ts) eqn:Hb.
  - destruct (bounded_srt _ _ Hw Hb) as [Hts HU]. destruct (analysis_pps pps) as [apps|] eqn:Ea.
    + destruct (apps_spec _ apps Ea) as [c [Ec Hn]]. assert (Hla : length apps = length ts) by (rewrite Ec, map_length; exact Hlen).
      destruct (c_total ts apps m Hts Hla Hm HU) as [N HN]. exists N. intros fuel rounds Hf. destruct (HN fuel rounds Hf) as [s Es].
      unfold compute_response_bounds. rewrite Hb, Ea, Es. cbn [negb]. eexists. reflexivity.
    + exfalso. destruct pps; [|discriminate]. destruct ts; [congruence|discriminate].
  - exists 0%nat. intros. unfold compute_response_bounds. rewrite Hb. reflexivity.
Qed.
Print Assumptions C38_gel_total.

(** For an empty task set min() raises (gel_pl.py:83) unless the uniprocessor shortcut applies. *)
Theorem C38_gel_empty : forall fuel (m : nat) rounds, (1 <= m)%nat ->
  compute_response_details fuel (Z.of_nat m) [] [] rounds = if (Z.of_nat m =? 1) then GelOk (Details [] [] []) else GelRaise.
Proof.
  intros fuel m rounds Hm. unfold compute_response_details. destruct (Z.of_nat m =? 1) eqn:E; [reflexivity|]. cbn [andb].
  unfold compute_response_bounds. replace (has_bounded_tardiness (Z.of_nat m) []) with true; [reflexivity|]. symmetry.
  unfold has_bounded_tardiness. apply andb_true_iff. split; [|reflexivity]. apply Qle_bool_iff. cbn [ts_utilization map qsum fold_right].
  change 0%Q with (inject_Z 0). rewrite <- Zle_Qle. lia.
Qed.
Print Assumptions C38_gel_empty.

(** ** The exact algorithm finds the smallest s that satisfies the compliance
    condition of the analysis. *)
Definition triple_of (p : task * Z) : Z * Z * Z := (t_cost (fst p), t_period (fst p), snd p).

Lemma compliance_iff : forall (m K : nat) ts apps s, (1 <= m)%nat -> Forall srt_task ts -> length apps = length ts -> Forall (fun a => 0 <= a) apps ->
  (compliance m K (map triple_of (combine ts apps)) s <->
   compliant (inject_Z (Z.of_nat m)) K (qsum (gel_S ts apps)) (gel_lines (Z.of_nat m) ts apps) s).
Proof.
  intros m K ts apps s Hm Hts Hla Hn. unfold compliance, compliant.
  assert (El : length (map triple_of (combine ts apps)) = length ts) by (rewrite map_length, combine_length, Hla; apply Nat.min_id).
  assert (Et : forall i, (i < length ts)%nat -> nth i (map triple_of (combine ts apps)) (0, 1, 0) = triple_of (nth i ts dtask, nth i apps 0)).
  { intros i Hi. rewrite (nth_indep _ (0, 1, 0) (triple_of (dtask, 0))) by (rewrite El; exact Hi).
    rewrite (map_nth triple_of). rewrite combine_nth by (symmetry; exact Hla). reflexivity. }
  assert (ES : (fold_right Qplus 0 (map (fun t => inject_Z (fst (fst t)) - u_of t * late_of t) (map triple_of (combine ts apps))) == qsum (gel_S ts apps))%Q).
  { rewrite (s_sumS ts apps m Hla Hm). change (fold_right Qplus 0%Q) with qsum. rewrite (map_index _ _ _ (0, 1, 0)), El. apply qs_ext.
    intros i Hi. apply in_seq in Hi. rewrite Et by lia. pose proof (s_S ts apps Hts Hla Hn i ltac:(lia)) as E. cbv beta in E.
    symmetry. exact E. }
  rewrite (s_lines_len ts apps m Hla), El.
  assert (EV : forall A, (forall i, In i A -> (i < length ts)%nat) ->
    (fold_right Qplus 0 (map (fun i => let t := nth i (map triple_of (combine ts apps)) (0%Z, 1%Z, 0%Z) in u_of t * (x_of m s t + late_of t)) A)
      == qsum (map (val (gel_lines (Z.of_nat m) ts apps) s) A))%Q).
  { intros A HA. change (fold_right Qplus 0%Q) with qsum. apply qs_ext. intros i Hi. specialize (HA i Hi). cbv zeta. rewrite Et by exact HA.
    pose proof (s_val ts apps m Hts Hla Hn s i HA) as E. cbv beta in E. symmetry. exact E. }
  split.
  - intros [H0 H]. split; [exact H0|]. intros A [A1 [A2 A3]]. specialize (H A A1 A3 A2). rewrite ES, (EV A A2) in H. exact H.
  - intros [H0 H]. split; [exact H0|]. intros A A1 A3 A2. rewrite ES, (EV A A2). apply H. repeat split; assumption.
Qed.

Theorem C38_exact_smallest : forall (m : nat) ts pps apps, (1 <= m)%nat -> Forall rt_task ts -> length pps = length ts ->
  has_bounded_tardiness (Z.of_nat m) ts = true -> analysis_pps pps = Some apps ->
  let uc := Qceiling (ts_utilization ts None) in
  let s := compute_exact_s (Z.of_nat m) uc (qsum (gel_S ts apps)) (gel_lines (Z.of_nat m) ts apps) in
  let ok := compliance m (Z.to_nat (uc - 1)) (map triple_of (combine ts apps)) in
  ok s /\ forall s', ok s' -> (s <= s')%Q.
Proof.
  intros m ts pps apps Hm Hw Hlen Hb Ea uc s ok. destruct (bounded_srt _ _ Hw Hb) as [Hts HU].
  destruct (apps_spec _ apps Ea) as [c [Ec Hn]]. assert (Hla : length apps = length ts) by (rewrite Ec, map_length; exact Hlen).
  unfold ok. split.
  - apply compliance_iff; try assumption. apply good_compliant. exact (c_exact ts apps m Hts Hla Hn Hm HU).
  - intros s' Hs'. apply compliance_iff in Hs'; try assumption. exact (c_smallest ts apps m Hts Hla Hn Hm HU s' Hs').
Qed.
Print Assumptions C38_exact_smallest.

Example C38_exact_smallest_example : analysis_pps [2; 7; 7; 5] = Some [0; 5; 5; 3] /\
  (compute_exact_s 2 2 (qsum (gel_S gel_ex2 [0; 5; 5; 3]%Z)) (gel_lines 2 gel_ex2 [0; 5; 5; 3]%Z) == 289 # 66)%Q.
Proof. split; [reflexivity|]. vm_compute. reflexivity. Qed.

Lemma exact_of : forall fuel m ts apps s, gel_s fuel m ts apps 0 = Some s ->
  compute_exact_s m (Qceiling (ts_utilization ts None)) (qsum (gel_S ts apps)) (gel_lines m ts apps) = s.
Proof. intros fuel m ts apps s E. unfold gel_s in E. congruence. Qed.

(** No binary search gives a smaller bound than the exact algorithm, and with
    enough rounds the bounds differ by at most one. *)
Theorem C38_exact_tightest : forall fuel (m : nat) ts pps rounds d0 d, (1 <= m)%nat -> Forall rt_task ts -> length pps = length ts ->
  compute_response_bounds fuel (Z.of_nat m) ts pps 0 = GelOk d0 -> compute_response_bounds fuel (Z.of_nat m) ts pps rounds = GelOk d ->
  Forall2 Z.le (d_bounds d0) (d_bounds d).
Proof.
  intros fuel m ts pps rounds d0 d Hm Hw Hlen E0 E. destruct (response_bounds_inv _ _ _ _ _ _ E0) as [Hb [apps [s0 [Ea [Es0 Ed0]]]]].
  destruct (response_bounds_inv _ _ _ _ _ _ E) as [_ [apps' [s [Ea' [Es Ed]]]]]. rewrite Ea in Ea'. inversion Ea'; subst apps'.
  destruct (bounded_srt _ _ Hw Hb) as [Hts HU]. destruct (apps_spec _ apps Ea) as [c [Ec Hn]]. assert (Hla : length apps = length ts) by (rewrite Ec, map_length; exact Hlen).
  pose proof (c_smallest ts apps m Hts Hla Hn Hm HU s (c_gel_s ts apps m Hts Hla Hn Hm HU fuel rounds s Es)) as L. apply exact_of in Es0. rename Es0 into Es0'.
  rewrite Es0' in L. rewrite Ed0, Ed. clear Ed0 Ed. induction (combine ts apps) as [|p l IH]; [constructor|]. cbn [map]. constructor; [|exact IH].
  unfold gel_task_bound. apply Qceiling_resp_le. lra.
Qed.
Print Assumptions C38_exact_tightest.

Theorem C38_binsearch_converges : forall (m : nat) ts pps, (1 <= m)%nat -> Forall rt_task ts -> length pps = length ts ->
  exists R, forall fuel rounds d0 d, (R <= rounds)%nat ->
    compute_response_bounds fuel (Z.of_nat m) ts pps 0 = GelOk d0 -> compute_response_bounds fuel (Z.of_nat m) ts pps rounds = GelOk d ->
    Forall2 (fun a b => b <= a + 1) (d_bounds d0) (d_bounds d).
Proof.
  intros m ts pps Hm Hw Hlen. destruct (has_bounded_tardiness (Z.of_nat m) ts) eqn:Hb.
  2:{ exists 0%nat. intros fuel rounds d0 d _ E0. unfold compute_response_bounds in E0. rewrite Hb in E0. discriminate. }
  destruct (analysis_pps pps) as [apps|] eqn:Ea.
  2:{ exists 0%nat. intros fuel rounds d0 d _ E0. unfold compute_response_bounds in E0. rewrite Hb, Ea in E0. discriminate. }
  destruct (bounded_srt _ _ Hw Hb) as [Hts HU]. destruct (apps_spec _ apps Ea) as [c0 [Ec Hn]]. assert (Hla : length apps = length ts) by (rewrite Ec, map_length; exact Hlen).
  destruct (c_converge ts apps m Hts Hla Hn Hm HU) as [c Hc]. exists (S (Z.to_nat (Qceiling c))). intros fuel rounds d0 d HR E0 E.
  destruct rounds as [|rounds]; [lia|].
  destruct (response_bounds_inv _ _ _ _ _ _ E0) as [_ [apps0 [s0 [Ea0 [Es0 Ed0]]]]]. rewrite Ea in Ea0. inversion Ea0; subst apps0.
  destruct (response_bounds_inv _ _ _ _ _ _ E) as [_ [apps1 [s [Ea1 [Es Ed]]]]]. rewrite Ea in Ea1. inversion Ea1; subst apps1.
  apply exact_of in Es0. rename Es0 into Es0'. specialize (Hc fuel rounds s Es). rewrite Es0' in Hc.
  assert (Hs : (s - s0 <= 1)%Q).
  { set (p2 := inject_Z (2 ^ Z.of_nat (S rounds))) in *.
    assert (c <= p2)%Q.
    { eapply Qle_trans; [apply Qle_ceiling|]. unfold p2. rewrite <- Zle_Qle. destruct (Z.le_gt_cases (Qceiling c) 0) as [Z0|Z0].
      - pose proof (Z.pow_pos_nonneg 2 (Z.of_nat (S rounds)) ltac:(lia) ltac:(lia)). lia.
      - pose proof (Z.pow_gt_lin_r 2 (Z.of_nat (S rounds)) ltac:(lia) ltac:(lia)). lia. }
    assert (0 < p2)%Q by (unfold p2; change 0%Q with (inject_Z 0); rewrite <- Zlt_Qlt; apply Z.pow_pos_nonneg; lia).
    destruct (Qlt_le_dec 1 (s - s0)); [nra|assumption]. }
  rewrite Ed0, Ed. clear Ed0 Ed. induction (combine ts apps) as [|p l IH]; [constructor|]. cbn [map]. constructor; [|exact IH].
  unfold gel_task_bound. set (q := (s0 - zdivq (t_cost (fst p)) (Z.of_nat m) + inject_Z (t_cost (fst p)) + inject_Z (snd p))%Q).
  rewrite <- (Qceiling_Z (Qceiling q + 1)). apply Qceiling_resp_le. rewrite inject_Z_plus. change (inject_Z 1) with 1%Q.
  pose proof (Qle_ceiling q) as G. unfold q in *. lra.
Qed.
Print Assumptions C38_binsearch_converges.

Example C38_converges_example : exists d0 d1 d8,
  compute_response_bounds 10 2 gel_ex2 [2; 7; 7; 5] 0 = GelOk d0 /\ d_bounds d0 = [5; 11; 11; 10] /\
  compute_response_bounds 10 2 gel_ex2 [2; 7; 7; 5] 1 = GelOk d1 /\ d_bounds d1 = [7; 13; 13; 11] /\
  compute_response_bounds 10 2 gel_ex2 [2; 7; 7; 5] 8 = GelOk d8 /\ d_bounds d8 = [5; 11; 11; 10].
Proof. do 3 eexists. repeat split; vm_compute; reflexivity. Qed.

(** ** G-FL and G-EDF.  The published response times are safe; the schedulers
    prioritize by the priority points of the paper and by deadlines. *)
Theorem C38_gfl_safe : forall fuel (m : nat) ts rounds bs, (1 <= m)%nat -> Forall rt_task ts -> has_bounded_tardiness (Z.of_nat m) ts = true ->
  gel_bound_response_times (compute_gfl_response_details fuel (Z.of_nat m) ts rounds) = Some (Some bs) ->
  length bs = length ts /\ gel_responses (map cp_of ts) (map (fun t => t_deadline t - (Z.of_nat m - 1) * t_cost t / Z.of_nat m) ts) m bs.
Proof.
  intros fuel m ts rounds bs Hm Hw Hb E. unfold compute_gfl_response_details in E.
  destruct (compute_response_details fuel (Z.of_nat m) ts (gfl_pps (Z.of_nat m) ts) rounds) as [d| | |] eqn:Ed; try discriminate.
  inversion E; subst bs. apply (C38_gel_safe fuel m ts (gfl_pps (Z.of_nat m) ts) rounds d); try assumption. apply map_length.
Qed.
Print Assumptions C38_gfl_safe.

Theorem C38_gedf_safe : forall fuel (m : nat) ts rounds bs, (1 <= m)%nat -> Forall rt_task ts -> has_bounded_tardiness (Z.of_nat m) ts = true ->
  gel_bound_response_times (compute_gedf_response_details fuel (Z.of_nat m) ts rounds) = Some (Some bs) ->
  length bs = length ts /\
  forall s sc, legal_edf (map (fun t => ETask (t_cost t) (t_period t) (t_deadline t)) ts) s -> gvalid (length ts) m s sc ->
    gedf (map (fun t => ETask (t_cost t) (t_period t) (t_deadline t)) ts) m s sc ->
    forall j b, nth_error bs (fst j) = Some b -> responds s sc j b.
Proof.
  intros fuel m ts rounds bs Hm Hw Hb E. unfold compute_gedf_response_details in E.
  destruct (compute_response_details fuel (Z.of_nat m) ts (gedf_pps ts) rounds) as [d| | |] eqn:Ed; try discriminate.
  inversion E; subst bs. destruct (C38_gel_safe fuel m ts (gedf_pps ts) rounds d) as [H1 H2]; try assumption; [apply map_length|].
  split; [exact H1|]. intros s sc Hl Hv Hg j b Eb.
  assert (Hj : (fst j < length ts)%nat) by (rewrite <- H1; apply nth_error_Some; congruence).
  assert (Ed' : forall i, (i < length ts)%nat -> nth i (gedf_pps ts) 0 = t_deadline (nth i ts dtask)).
  { intros i Hi. unfold gedf_pps. rewrite (nth_indep _ 0 (t_deadline dtask)) by (rewrite map_length; exact Hi). apply map_nth. }
  assert (Ee : forall i, (i < length ts)%nat ->
    e_deadline (nth i (map (fun t => ETask (t_cost t) (t_period t) (t_deadline t)) ts) (ETask 0 1 0)) = t_deadline (nth i ts dtask)).
  { intros i Hi. set (f := fun t => ETask (t_cost t) (t_period t) (t_deadline t)).
    rewrite (nth_indep (map f ts) (ETask 0 1 0) (f dtask)) by (rewrite map_length; exact Hi). rewrite map_nth. reflexivity. }
  apply (H2 s sc); rewrite ?map_length; try assumption.
  - unfold legal_edf in Hl. rewrite map_map in Hl. rewrite map_map. exact Hl.
  - intros t j0 Hj0 Hr Hn. rewrite <- (map_length (fun t => ETask (t_cost t) (t_period t) (t_deadline t)) ts) in Hj0.
    destruct (Hg t j0 Hj0 Hr Hn) as [G1 G2]. rewrite map_length in Hj0. split; [exact G1|]. intros j' Hj'. specialize (G2 j' Hj').
    destruct (Hv t) as [_ [_ Hv3]]. destruct (Hv3 j' Hj') as [Hj'n _].
    unfold prio_point. rewrite !Ed' by assumption. unfold due in G2. rewrite !Ee in G2 by assumption. exact G2.
Qed.
Print Assumptions C38_gedf_safe.

Example C38_gfl_example : gel_bound_response_times (compute_gfl_response_details 10 2 gel_ex2 0) = Some (Some [6; 11; 11; 9]) /\
  gel_bound_response_times (compute_gedf_response_details 10 2 gel_ex2 0) = Some (Some [5; 11; 11; 10]) /\
  gel_bound_response_times (compute_gedf_response_details 10 2 (Task 2 3 3 :: gel_ex) 0) = Some None.
Proof. repeat split; vm_compute; reflexivity. Qed.

(** Without the check of the utilization the uniprocessor shortcut is unsafe:
    has_bounded_tardiness in C38_gel_safe cannot be dropped. *)
Theorem C38_shortcut_refuted : exists ts pps d, Forall rt_task ts /\ length pps = length ts /\
  (forall fuel rounds, compute_response_details fuel 1 ts pps rounds = GelOk d) /\ ~ gel_responses (map cp_of ts) pps 1 (d_bounds d).
Proof.
  exists [Task 2 2 2; Task 1 1 1], [2; 1], (Details [2; 1] [0%Q; 0%Q] [0%Q; 0%Q]).
  assert (Hw : Forall rt_task [Task 2 2 2; Task 1 1 1]) by (repeat constructor; cbn; lia).
  split; [exact Hw|]. split; [reflexivity|]. split; [reflexivity|]. intros H.
  pose proof (overload [Task 2 2 2; Task 1 1 1] [2; 1] [2; 1] 1 Hw eq_refl H) as B. vm_compute in B. discriminate.
Qed.
Print Assumptions C38_shortcut_refuted.

(** ** The C++ implementation *)
Theorem C38_native_safe : forall fuel (m : nat) ts pps rounds bs,
  (1 <= m)%nat -> Forall rt_task ts -> length pps = length ts -> Forall (fun p => 0 < p) pps -> has_bounded_tardiness (Z.of_nat m) ts = true ->
  n_gel fuel (Z.of_nat m) ts pps rounds = Some bs ->
  length bs = length ts /\ gel_responses (map cp_of ts) pps m bs.
Proof.
  intros fuel m ts pps rounds bs Hm Hw Hlen Hpos Hb E. unfold n_gel in E.
  assert (Epp : map (fun p => n_prio_pt (fst p) (snd p)) (combine ts pps) = pps).
  { clear - Hlen Hpos. revert pps Hlen Hpos. induction ts as [|t ts IH]; intros pps Hlen Hpos; (destruct pps as [|a r]; [try reflexivity; discriminate|]); [discriminate|].
    cbn [combine map fst snd]. inversion Hpos; subst. f_equal; [|apply IH; [cbn in Hlen; lia|assumption]].
    unfold n_prio_pt. replace (a =? 0) with false by (symmetry; apply Z.eqb_neq; lia). reflexivity. }
  rewrite Epp in E. destruct (bounded_srt _ _ Hw Hb) as [Hts HU]. destruct (analysis_pps pps) as [apps|] eqn:Ea.
  - destruct (apps_spec _ apps Ea) as [c [Ec Hn]]. assert (Hla : length apps = length ts) by (rewrite Ec, map_length; exact Hlen).
    destruct (n_gel_s fuel (Z.of_nat m) ts apps rounds) as [s|] eqn:Es; [|discriminate]. inversion E; subst bs. split.
    + rewrite map_length, combine_length, Hla. apply Nat.min_id.
    + apply (compliant_safe ts pps apps m s (n_gel_task_bound (Z.of_nat m) s) Hts Hlen Hm HU Ea).
      * exact (c_native ts apps m Hts Hla Hn Hm HU fuel rounds s Es).
      * intros i _. exact (n_bound_ge ts apps m Hla Hm s i).
  - destruct pps; [|discriminate]. destruct ts; [|discriminate]. inversion E; subst. split; [reflexivity|]. intros s sc _ _ _ j b Hj. cbn in Hj. lia.
Qed.
Print Assumptions C38_native_safe.

Theorem C38_native_total : forall (m : nat) ts pps, (1 <= m)%nat -> Forall rt_task ts -> length pps = length ts ->
  has_bounded_tardiness (Z.of_nat m) ts = true ->
  exists N, forall fuel rounds, (N <= fuel)%nat -> exists bs, n_gel fuel (Z.of_nat m) ts pps rounds = Some bs.
Proof.
  intros m ts pps Hm Hw Hlen Hb. destruct (bounded_srt _ _ Hw Hb) as [Hts HU]. unfold n_gel.
  destruct (analysis_pps (map (fun p => n_prio_pt (fst p) (snd p)) (combine ts pps))) as [apps|] eqn:Ea.
  - destruct (apps_spec _ apps Ea) as [c [Ec Hn]].
    assert (Hla : length apps = length ts) by (rewrite Ec, !map_length, combine_length, Hlen; apply Nat.min_id).
    destruct (c_native_total ts apps m Hts Hla Hm HU) as [N HN]. exists N. intros fuel rounds Hf. destruct (HN fuel rounds Hf) as [s ->]. eexists. reflexivity.
  - exists 0%nat. intros. eexists. reflexivity.
Qed.
Print Assumptions C38_native_total.

Example C38_native_example : n_gel 10 2 gel_ex2 [2; 7; 7; 5] 0 = Some [5; 11; 11; 10] /\ n_gel 10 2 gel_ex2 [2; 7; 7; 5] 1 = Some [7; 13; 13; 11].
Proof. split; vm_compute; reflexivity. Qed.

(** The constructor does not check for overload, and a priority point of 0 is
    silently replaced: both hypotheses are needed. *)
Theorem C38_native_overload_refuted : exists ts pps bs, Forall rt_task ts /\ Forall (fun p => 0 < p) pps /\ length pps = length ts /\
  (forall fuel, n_gel fuel 1 ts pps 0 = Some bs) /\ ~ gel_responses (map cp_of ts) pps 1 bs.
Proof.
  exists [Task 3 4 4; Task 3 4 5], [4; 5], [15; 16]. assert (Hw : Forall rt_task [Task 3 4 4; Task 3 4 5]) by (repeat constructor; cbn; lia).
  split; [exact Hw|]. split; [repeat constructor|]. split; [reflexivity|]. split; [intros fuel; vm_compute; reflexivity|]. intros H.
  pose proof (overload [Task 3 4 4; Task 3 4 5] [4; 5] [15; 16] 1 Hw eq_refl H) as B. vm_compute in B. discriminate.
Qed.
Print Assumptions C38_native_overload_refuted.

Theorem C38_native_zero_refuted : exists ts pps bs, Forall rt_task ts /\ length pps = length ts /\ has_bounded_tardiness 1 ts = true /\
  (forall fuel, n_gel fuel 1 ts pps 0 = Some bs) /\ ~ gel_responses (map cp_of ts) pps 1 bs.
Proof.
  exists [Task 1 2 20; Task 4 8 8], [0; 4], [20; 4]. assert (Hw : Forall rt_task [Task 1 2 20; Task 4 8 8]) by (repeat constructor; cbn; lia).
  split; [exact Hw|]. split; [reflexivity|]. split; [reflexivity|]. split; [intros fuel; vm_compute; reflexivity|]. intros H.
  set (ts := [Task 1 2 20; Task 4 8 8]) in *. destruct (gel_schedule_ok ts [0; 4] 1 Hw) as [Hv Hg].
  destruct (H (periodic ts) (gel_schedule ts [0; 4] 1) (periodic_legal ts Hw) Hv Hg (1%nat, 0%nat) 4) as [q [Q1 Q2]]; [cbn; lia|reflexivity|].
  cbn [fst snd periodic arr] in Q1. cbn in Q1. unfold gcompleted in Q2.
  pose proof (ProofGlobal.gservice_mono (gel_schedule ts [0; 4] 1) (1%nat, 0%nat) q (Z.to_nat 4) ltac:(lia)) as M.
  assert (G : gservice (gel_schedule ts [0; 4] 1) (1%nat, 0%nat) (Z.to_nat 4) < 4) by (vm_compute; reflexivity).
  change (Z.of_nat (cst (periodic ts) (fst (1%nat, 0%nat)) (snd (1%nat, 0%nat)))) with 4 in Q2. lia.
Qed.
Print Assumptions C38_native_zero_refuted.

(** ** da.py *)

(** The tardiness bound is None exactly if no bound exists at all. *)
Theorem C43_da_total : forall m ts preemptive, Forall rt_task ts ->
  (task_tardiness_bound m ts preemptive = None <-> has_bounded_tardiness m ts = false).
Proof. exact tardiness_total. Qed.
Print Assumptions C43_da_total.

Example C43_da_total_example : task_tardiness_bound 3 [Task 1 2 2; Task 3 7 7; Task 5 7 7; Task 4 9 9; Task 4 8 8] true = Some 4 /\
  task_tardiness_bound 3 [Task 1 2 2; Task 3 7 7; Task 5 7 7; Task 4 9 9; Task 4 8 8] false <> None /\ task_tardiness_bound 2 (Task 2 3 3 :: gel_ex) true = None.
Proof. repeat split; vm_compute; (reflexivity || discriminate). Qed.

(** The recorded response times hold in every preemptive global EDF schedule. *)
Theorem C43_da_safe : forall (m : nat) ts bs, (1 <= m)%nat -> Forall rt_task ts ->
  da_bound_response_times (Z.of_nat m) ts true = DaTrue bs ->
  length bs = length ts /\ gel_responses (map cp_of ts) (map t_deadline ts) m bs.
Proof.
  intros m ts bs Hm Hw E. unfold da_bound_response_times in E. destruct (forallb implicit_deadline ts) eqn:Hi; cbn [negb] in E; [|discriminate].
  destruct (task_tardiness_bound (Z.of_nat m) ts true) as [x|] eqn:Ex; [|discriminate]. inversion E; subst bs. split; [apply map_length|].
  pose proof (tardiness_nonneg _ _ _ Hw Ex) as Hx. rewrite forallb_forall in Hi.
  assert (Hd : map t_deadline ts = map t_period ts) by (apply map_ext_in; intros t Ht; specialize (Hi t Ht); unfold implicit_deadline in Hi; lia).
  assert (Hr : map (fun t => t_deadline t + t_cost t + x) ts = map (fun t => t_period t + t_cost t + x) ts).
  { apply map_ext_in. intros t Ht. specialize (Hi t Ht). unfold implicit_deadline in Hi. lia. }
  rewrite Hd, Hr.
  assert (Hb : has_bounded_tardiness (Z.of_nat m) ts = true).
  { destruct (has_bounded_tardiness (Z.of_nat m) ts) eqn:Hb; [reflexivity|]. apply (tardiness_total _ _ true Hw) in Hb. congruence. }
  destruct (bounded_srt _ _ Hw Hb) as [Hts HU]. destruct ts as [|t ts].
  - intros s sc _ _ _ j b Hj. cbn in Hj. lia.
  - destruct (tardiness_covers m (t :: ts) x Hm Hw ltac:(discriminate) Ex) as [e [He Hc]]. exact (da_safe m (t :: ts) x e Hm Hts HU Hx He Hc).
Qed.
Print Assumptions C43_da_safe.

(** With utilization above 1, so that carry-in counts: Lambda = 2 and x = 4 in the
    second case. *)
Example C43_da_example : da_bound_response_times 2 [Task 1 3 3; Task 2 6 6; Task 1 4 4] true = DaTrue [4; 8; 5] /\
  da_bound_response_times 3 [Task 1 2 2; Task 3 7 7; Task 5 7 7; Task 4 9 9; Task 4 8 8] true = DaTrue [7; 14; 16; 17; 16] /\
  da_bound_response_times 2 gel_ex true = DaTrue [5; 5; 5] /\ da_bound_response_times 2 [Task 1 3 4] true = DaAssert.
Proof. repeat split; vm_compute; reflexivity. Qed.

Lemma util_le_one : forall ts, Forall rt_task ts -> (ts_utilization ts None <= 1)%Q -> forallb (fun t => t_cost t <=? t_period t) ts = true.
Proof.
  assert (Nn : forall t, rt_task t -> (0 <= utilization t)%Q).
  { intros t [A B]. unfold utilization, zdivq. apply Qle_shift_div_l; [change 0%Q with (inject_Z 0); rewrite <- Zlt_Qlt; lia|]. rewrite Qmult_0_l. change 0%Q with (inject_Z 0). rewrite <- Zle_Qle. exact A. }
  assert (Ns : forall ts, Forall rt_task ts -> (0 <= qsum (map utilization ts))%Q).
  { intros ts H. induction H as [|t l Ht Hl IH]; cbn; [lra|]. specialize (Nn t Ht). unfold qsum in IH. lra. }
  intros ts H. induction H as [|t l Ht Hl IH]; intros HU; [reflexivity|]. unfold ts_utilization in *. cbn [map qsum fold_right] in HU.
  fold (qsum (map utilization l)) in HU. pose proof (Nn t Ht) as N1. pose proof (Ns l Hl) as N2. cbn [forallb]. apply andb_true_iff. split.
  - apply Z.leb_le. assert (U1 : (utilization t <= 1)%Q) by lra. destruct Ht as [_ Hp]. unfold utilization, zdivq in U1.
    apply (Qmult_le_compat_r _ _ (inject_Z (t_period t))) in U1; [|change 0%Q with (inject_Z 0); rewrite <- Zle_Qle; lia].
    rewrite Qmult_1_l in U1. assert (E : (inject_Z (t_cost t) / inject_Z (t_period t) * inject_Z (t_period t) == inject_Z (t_cost t))%Q)
      by (field; unfold Qeq, inject_Z; cbn; lia).
    rewrite E in U1. rewrite <- Zle_Qle in U1. exact U1.
  - apply IH. lra.
Qed.

(** On one processor, tardiness_x alone is a safe test: a value means that
    there is no tardiness beyond the cost. *)
Theorem C43_x_single : forall ts x, Forall rt_task ts -> tardiness_x 1 ts = Some x ->
  gel_responses (map cp_of ts) (map t_period ts) 1 (map (fun t => t_period t + t_cost t + x) ts).
Proof.
  intros ts x Hw E. destruct ts as [|t ts]; [intros s sc _ _ _ j b Hj; cbn in Hj; lia|].
  unfold tardiness_x in E. cbn [Z.eqb] in E. change (1 =? 1) with true in E. cbv iota in E.
  destruct (Qle_bool (ts_utilization (t :: ts) None) 1) eqn:EU; [|discriminate]. inversion E; subst x.
  apply Qle_bool_iff in EU.
  assert (Hb : has_bounded_tardiness 1 (t :: ts) = true).
  { unfold has_bounded_tardiness. apply andb_true_iff. split; [apply Qle_bool_iff; exact EU|]. apply util_le_one; assumption. }
  destruct (bounded_srt 1 _ Hw Hb) as [Hts HU].
  assert (Ex : task_tardiness_bound (Z.of_nat 1) (t :: ts) true = Some 0) by (unfold task_tardiness_bound; change (Z.of_nat 1) with 1; rewrite Hb; reflexivity).
  destruct (tardiness_covers 1 (t :: ts) 0 (le_n 1) Hw ltac:(discriminate) Ex) as [e [He Hc]]. exact (da_safe 1 (t :: ts) 0 e (le_n 1) Hts HU ltac:(lia) He Hc).
Qed.
Print Assumptions C43_x_single.

Example C43_x_single_example : tardiness_x 1 [Task 1 3 3; Task 2 6 6; Task 1 4 4] = Some 0 /\ tardiness_x 1 [Task 2 3 3; Task 2 6 6; Task 1 4 4] = None.
Proof. split; vm_compute; reflexivity. Qed.

(** For non-preemptive scheduling on one processor the bound is wrong: the code
    returns a tardiness of 0 (da.py:75-76), but a job can be blocked. *)
Definition np_ts : taskset := [Task 1 2 2; Task 10 20 20].
Definition np_jobs : jobseq :=
  JobSeq (fun i k => match i with O => 2 * k + 1 | _ => 20 * k end)%nat (fun i k => match i with O => 2 * k + 1 | _ => 20 * k end)%nat
         (fun i k => match k with O => match i with O => 1 | _ => 10 end | _ => 0 end)%nat.
Definition np_sched : gschedule := fun t => if (t <? 10)%nat then [(1, 0)%nat] else if (t =? 10)%nat then [(0, 0)%nat] else [].

Theorem C43_np_single_refuted : exists ts bs, Forall rt_task ts /\ has_bounded_tardiness 1 ts = true /\
  da_bound_response_times 1 ts false = DaTrue bs /\ ~ np_gel_responses (map cp_of ts) (map t_deadline ts) 1 bs.
Proof.
  exists np_ts, [3; 30]. split; [repeat constructor; cbn; lia|]. split; [reflexivity|]. split; [reflexivity|]. intros H.
  assert (Sv1 : forall t, gservice np_sched (1, 0)%nat t = Z.min (Z.of_nat t) 10).
  { induction t as [|t IH]; [reflexivity|]. rewrite ProofGlobal.gservice_step, IH. unfold gruns, np_sched.
    destruct (Nat.ltb_spec t 10) as [L|L]; [cbn; lia|]. destruct (Nat.eqb_spec t 10); cbn [existsb]; unfold job_eqb; cbn; lia. }
  assert (Sv0 : forall t, gservice np_sched (0, 0)%nat t = if (t <=? 10)%nat then 0 else 1).
  { induction t as [|t IH]; [reflexivity|]. rewrite ProofGlobal.gservice_step, IH. unfold gruns, np_sched.
    destruct (Nat.leb_spec t 10); destruct (Nat.leb_spec (S t) 10); destruct (Nat.ltb_spec t 10); destruct (Nat.eqb_spec t 10); try lia; reflexivity. }
  assert (SvN : forall i k t, (0 <= gservice np_sched (i, S k) t)) by (intros; apply ProofGlobal.gservice_nonneg).
  assert (Hg : forall j t, gready np_jobs np_sched j t -> snd j = 0%nat /\ (fst j = 0%nat -> (1 <= t <= 10)%nat) /\ (fst j = 1%nat -> (t < 10)%nat)).
  { intros [i [|k]] t [R1 [R2 R3]]; cbn [fst snd np_jobs cst rel] in *.
    - split; [reflexivity|]. split; intros ->; [rewrite Sv0 in R2; destruct (Nat.leb_spec t 10); lia|rewrite Sv1 in R2; lia].
    - specialize (SvN i k t). lia. }
  destruct (H np_jobs np_sched) with (j := (0, 0)%nat) (b := 3) as [q [Q1 Q2]]; [| | |cbn; lia|reflexivity|].
  - intros i p E k. destruct i as [|[|i]]; cbn in E; [| |destruct i; discriminate]; inversion E; subst p; cbn [np_jobs arr rel cst pr_cost pr_period pr_jitter fst snd cp_of];
      (repeat split; try lia; destruct k; lia).
  - intros t. unfold np_sched. destruct (Nat.ltb_spec t 10) as [L|L]; [|destruct (Nat.eqb_spec t 10) as [->|N]].
    + split; [cbn; lia|]. split; [repeat constructor; intros []|]. intros j [<-|[]]. split; [cbn; lia|]. split; [cbn; lia|].
      split; [rewrite Sv1; cbn [np_jobs cst fst snd]; lia|]. cbn. lia.
    + split; [cbn; lia|]. split; [repeat constructor; intros []|]. intros j [<-|[]]. split; [cbn; lia|]. split; [cbn; lia|].
      split; [rewrite Sv0; cbn; lia|]. cbn. lia.
    + split; [cbn; lia|]. split; [constructor|]. intros j [].
  - intros t j Hj. split.
    + intros G1 G2. destruct j as [i [|k]]; [|cbn [np_jobs cst fst snd] in G2; specialize (SvN i k t); lia].
      destruct i as [|[|i]]; [|rewrite Sv1 in *; cbn [np_jobs cst fst snd] in G2|cbn in Hj; lia].
      * rewrite Sv0 in *. cbn [np_jobs cst fst snd] in G2. destruct (Nat.leb_spec t 10); lia.
      * unfold np_sched. destruct (Nat.ltb_spec t 10); [left; reflexivity|lia].
    + intros R Hn. destruct (Hg j t R) as [R1 [R2 R3]]. destruct j as [i k]. cbn [fst snd] in *. subst k.
      unfold np_sched in *. destruct i as [|[|i]]; [| |cbn in Hj; lia].
      * specialize (R2 eq_refl). destruct (Nat.ltb_spec t 10) as [L|L].
        -- split; [reflexivity|]. intros j' [<-|[]] Hs. fold np_sched in Hs. rewrite Sv1 in Hs. lia.
        -- destruct (Nat.eqb_spec t 10); [exfalso; apply Hn; left; reflexivity|lia].
      * specialize (R3 eq_refl). destruct (Nat.ltb_spec t 10); [exfalso; apply Hn; left; reflexivity|lia].
  - cbn [fst snd np_jobs arr] in Q1. unfold gcompleted in Q2. rewrite Sv0 in Q2. cbn [np_jobs cst fst snd] in Q2. destruct (Nat.leb_spec q 10); lia.
Qed.
Print Assumptions C43_np_single_refuted.

(** On several processors the non-preemptive bound is wrong, too.  Two jobs with
    late deadlines start at time 0 and block three tasks, released at time 1, until
    time 5.  The last of them completes at 15; the analysis records 13 as its
    response time (Lambda = 1, no blocking term, equal costs, hence x = 0). *)
Definition np2_ts : taskset := [Task 5 8 8; Task 5 8 8; Task 5 8 8; Task 5 80 80; Task 5 80 80].
Definition np2_arr (i k : nat) : nat := if (i <? 3)%nat then 8 * k + 1 else 80 * k.
Definition np2_jobs : jobseq := JobSeq np2_arr np2_arr (fun i k => match k with O => 5 | _ => 0 end)%nat.
Definition np2_start (i : nat) : nat := nth i [5; 5; 10; 0; 0]%nat 0%nat.
Definition np2_sched : gschedule := fun t =>
  filter (fun j : job => (np2_start (fst j) <=? t)%nat && (t <? np2_start (fst j) + 5)%nat) [(0, 0); (1, 0); (2, 0); (3, 0); (4, 0)]%nat.

Theorem C43_np_refuted : exists (m : nat) ts bs, (2 <= m)%nat /\ Forall rt_task ts /\ has_bounded_tardiness (Z.of_nat m) ts = true /\
  da_bound_response_times (Z.of_nat m) ts false = DaTrue bs /\ ~ np_gel_responses (map cp_of ts) (map t_deadline ts) m bs.
Proof.
  exists 2%nat, np2_ts, [13; 13; 13; 85; 85]. split; [lia|]. split; [repeat constructor; cbn; lia|]. split; [reflexivity|]. split; [reflexivity|]. intros H.
  assert (Rn : forall i t, (i < 5)%nat -> gruns np2_sched (i, 0)%nat t = ((np2_start i <=? t)%nat && (t <? np2_start i + 5)%nat)).
  { intros i t Hi. apply Bool.eq_iff_eq_true. rewrite ProofGlobal.gruns_iff. unfold np2_sched. rewrite filter_In. cbn [fst]. split; [intros [_ E]; exact E|].
    intros E. split; [|exact E]. do 5 (destruct i as [|i]; [cbn; tauto|]). lia. }
  assert (Sv : forall i t, (i < 5)%nat -> gservice np2_sched (i, 0)%nat t = Z.max 0 (Z.min 5 (Z.of_nat t - Z.of_nat (np2_start i)))).
  { intros i t Hi. induction t as [|t IH]; [cbn; lia|]. rewrite ProofGlobal.gservice_step, IH, Rn by assumption.
    destruct (Nat.leb_spec (np2_start i) t), (Nat.ltb_spec t (np2_start i + 5)); cbn [andb b2z]; lia. }
  assert (Hin : forall t j, In j (np2_sched t) -> snd j = 0%nat /\ (fst j < 5)%nat /\ (np2_start (fst j) <= t < np2_start (fst j) + 5)%nat).
  { intros t j Hj. unfold np2_sched in Hj. apply filter_In in Hj. destruct Hj as [Hj E]. apply andb_prop in E. destruct E as [E1 E2].
    apply Nat.leb_le in E1. apply Nat.ltb_lt in E2. cbn in Hj. destruct Hj as [<-|[<-|[<-|[<-|[<-|[]]]]]]; cbn [fst snd] in *; (split; [reflexivity|split; [lia|split; assumption]]). }
  assert (Hst : forall i, (i < 5)%nat -> (np2_arr i 0 <= np2_start i)%nat /\ (np2_start i <= 10)%nat) by (intros i Hi; do 5 (destruct i as [|i]; [cbn; lia|]); lia).
  destruct (H np2_jobs np2_sched) with (j := (2, 0)%nat) (b := 13) as [q [Q1 Q2]]; [| | |cbn; lia|reflexivity|].
  - intros i p E k. cbn [np2_jobs arr rel cst]. unfold np2_arr.
    do 5 (destruct i as [|i]; [cbn in E; inversion E; subst p; cbn [pr_cost pr_period pr_jitter Nat.ltb Nat.leb]; repeat split; try lia; destruct k; lia|]). destruct i; discriminate.
  - intros t. split; [|split].
    + destruct (Nat.lt_ge_cases t 15) as [L|L]; [do 15 (destruct t as [|t]; [cbn; lia|]); lia|].
      replace (np2_sched t) with (@nil job); [cbn; lia|]. symmetry. destruct (np2_sched t) as [|j l] eqn:E; [reflexivity|].
      destruct (Hin t j) as [_ [A B]]; [rewrite E; left; reflexivity|]. pose proof (Hst _ A). lia.
    + unfold np2_sched. apply NoDup_filter. repeat constructor; cbn; intuition discriminate.
    + intros j Hj. destruct (Hin t j Hj) as [A [B D]]. destruct j as [i k]. cbn [fst snd] in *. subst k. split; [exact B|].
      split; [cbn [np2_jobs rel fst snd]; pose proof (Hst i B); lia|]. split; [rewrite (Sv i t B); cbn [np2_jobs cst fst snd]; lia|]. cbn. lia.
  - intros t j Hj. cbn [length map np2_ts] in Hj. destruct j as [i [|k]]; cbn [fst snd] in *.
    2:{ split; [intros G1 G2; cbn [np2_jobs cst fst snd] in G2; lia|]. intros [_ [R _]] _. cbn [np2_jobs cst fst snd] in R.
        pose proof (ProofGlobal.gservice_nonneg np2_sched (i, S k) t). lia. }
    split.
    + intros G1 G2. rewrite (Sv i t Hj) in *. cbn [np2_jobs cst fst snd] in G2. apply ProofGlobal.gruns_iff. rewrite (Rn i t Hj). apply andb_true_iff.
      split; [apply Nat.leb_le|apply Nat.ltb_lt]; lia.
    + intros [R1 [R2 _]] Hn. rewrite (Sv i t Hj) in R2. cbn [np2_jobs cst rel fst snd] in R1, R2.
      assert (L : (t < np2_start i)%nat).
      { destruct (Nat.lt_ge_cases t (np2_start i)) as [|G]; [assumption|]. exfalso. apply Hn. apply ProofGlobal.gruns_iff. rewrite (Rn i t Hj). apply andb_true_iff.
        split; [apply Nat.leb_le|apply Nat.ltb_lt]; lia. }
      assert (I : (i < 3)%nat) by (do 3 (destruct i as [|i]; [lia|]); do 2 (destruct i as [|i]; [cbn in L; lia|]); lia).
      assert (A0 : np2_arr i 0 = 1%nat) by (unfold np2_arr; destruct (Nat.ltb_spec i 3); lia). rewrite A0 in R1.
      assert (T10 : (t < 10)%nat) by (pose proof (Hst i Hj); lia).
      assert (L2 : length (np2_sched t) = 2%nat) by (do 10 (destruct t as [|t]; [reflexivity|]); lia).
      split; [exact L2|]. intros j' Hj' Hs. destruct (Hin t j' Hj') as [A [B D]]. destruct j' as [i' k']. cbn [fst snd] in *. subst k'.
      rewrite (Sv i' t B) in Hs. unfold prio_point. cbn [fst snd np2_jobs arr].
      assert (Hi' : (i' < 3)%nat) by (do 3 (destruct i' as [|i']; [lia|]); do 2 (destruct i' as [|i']; [cbn in Hs; lia|]); lia).
      do 3 (destruct i as [|i]; [do 3 (destruct i' as [|i']; [cbn; lia|]); lia|]). lia.
  - cbn [fst snd np2_jobs arr] in Q1. unfold np2_arr in Q1. cbn in Q1. unfold gcompleted in Q2. rewrite (Sv 2%nat q ltac:(lia)) in Q2. cbn [np2_jobs cst fst snd] in Q2.
    unfold np2_start in Q2. cbn [nth] in Q2. lia.
Qed.
Print Assumptions C43_np_refuted.
