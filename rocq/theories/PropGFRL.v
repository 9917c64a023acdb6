(** Theorems for C78: G-FRL (schedcat/sched/gfrl.py). *)
From Coq Require Import ZArith QArith Qround Lqa List Bool Lia Permutation.
From Verif Require Import Base SpecUni SpecQPA SpecGlobal SpecTardiness ModelTasks ProofTasks ModelTardiness ModelGFRL SpecGFRL
  ProofTardiness ProofTardinessSafe ProofTardinessTop PropTardiness ProofGFRL ProofGFRLSafe.
Import ListNotations.
Open Scope Q_scope.

Lemma asserted : forall zero (m : nat) ts pps, Forall rt_task ts ->
  gfrl_response_bounds (Some zero) (Z.of_nat m) ts = GfrlTypeError pps ->
  Forall srt_task ts /\ ts_utilization ts None <= inject_Z (Z.of_nat m) /\ func_val zero ts (Z.of_nat m) == 0 /\ pps = gfrl_pps zero ts (Z.of_nat m).
Proof.
  intros zero m ts pps Hts E. unfold gfrl_response_bounds in E. destruct (has_bounded_tardiness (Z.of_nat m) ts) eqn:Hb; [|discriminate]. cbn [negb] in E.
  destruct (Qeq_bool (func_val zero ts (Z.of_nat m)) 0) eqn:Ez; [|discriminate]. apply Qeq_bool_iff in Ez. destruct (bounded_srt _ _ Hts Hb) as [A B].
  inversion E. auto.
Qed.

Lemma pps_nth : forall L ts m i, (i < length ts)%nat -> nth i (gfrl_pps L ts (Z.of_nat m)) 0 = pp_of ts m L (nth i ts dtask).
Proof.
  intros L ts m i Hi. unfold gfrl_pps. change (map _ ts) with (map (pp_of ts m L) ts).
  rewrite (nth_indep _ 0 (pp_of ts m L dtask)) by (rewrite map_length; exact Hi). apply map_nth.
Qed.

(** the sum of SpecGFRL, in the terms of ProofGFRL *)
Lemma delaying_eq : forall L ts m s A, (forall i, In i A -> (i < length ts)%nat) ->
  delaying (inject_Z (Z.of_nat m)) (map qtriple_of (combine ts (gfrl_pps L ts (Z.of_nat m)))) s A ==
  qsum (map (fun t => inject_Z (t_cost t) - utilization t * pp_of ts m L t) ts) +
  qsum (map (fun i => utilization (nth i ts dtask) * (s - zdivq (t_cost (nth i ts dtask)) (Z.of_nat m) + pp_of ts m L (nth i ts dtask))) A).
Proof.
  intros L ts m s A HA. assert (Hl : length (gfrl_pps L ts (Z.of_nat m)) = length ts) by apply map_length.
  unfold delaying. change (fold_right Qplus 0) with qsum.
  rewrite (map_index _ _ (fun t => cost_q t - util_q t * snd t) (0%Z, 1%Z, 0)). rewrite map_length, combine_length, Hl, Nat.min_id.
  rewrite (map_index _ _ (fun t => inject_Z (t_cost t) - utilization t * pp_of ts m L t) dtask).
  rewrite (qs_ext _ (fun i => cost_q (nth i (map qtriple_of (combine ts (gfrl_pps L ts (Z.of_nat m)))) (0%Z, 1%Z, 0)) - _) (fun i => inject_Z (t_cost (nth i ts dtask)) - utilization (nth i ts dtask) * pp_of ts m L (nth i ts dtask))).
  2:{ intros i Hi. apply in_seq in Hi. rewrite r_nth by (try exact Hl; lia). rewrite pps_nth by lia. reflexivity. }
  rewrite (qs_ext _ _ (fun i => utilization (nth i ts dtask) * (s - zdivq (t_cost (nth i ts dtask)) (Z.of_nat m) + pp_of ts m L (nth i ts dtask))) A).
  2:{ intros i Hi. specialize (HA i Hi). cbv zeta. rewrite r_nth by (try exact Hl; lia). rewrite pps_nth by lia. reflexivity. }
  reflexivity.
Qed.

(** ** The priority points that pass the assertion satisfy the compliance condition
    tightly, lie between 0 and the period, and make the bounds at most L times the
    relative deadlines: equal unless the priority point is the period, and equal for
    some task with priority point 0. *)
Theorem C78_compliance : forall zero (m : nat) ts pps, (1 <= m)%nat -> Forall rt_task ts -> ts <> [] ->
  gfrl_response_bounds (Some zero) (Z.of_nat m) ts = GfrlTypeError pps ->
  let mq := inject_Z (Z.of_nat m) in
  let K := Z.to_nat (Qceiling (qsum (map utilization ts)) - 1) in
  let bound (s : Q) (i : nat) := nth i pps 0 + s - inject_Z (t_cost (nth i ts (Task 0 1 1))) / mq + inject_Z (t_cost (nth i ts (Task 0 1 1))) in
  let limit (i : nat) := zero * inject_Z (t_deadline (nth i ts (Task 0 1 1))) in
  length pps = length ts /\
  exists s, 0 <= s /\
    (forall A, NoDup A -> (forall i, In i A -> (i < length ts)%nat) -> length A = K -> delaying mq (map qtriple_of (combine ts pps)) s A <= mq * s) /\
    (exists A, NoDup A /\ (forall i, In i A -> (i < length ts)%nat) /\ length A = K /\ delaying mq (map qtriple_of (combine ts pps)) s A == mq * s) /\
    (forall i, (i < length ts)%nat -> 0 <= nth i pps 0 /\ nth i pps 0 <= inject_Z (t_period (nth i ts (Task 0 1 1))) /\
      bound s i <= limit i /\ (nth i pps 0 == inject_Z (t_period (nth i ts (Task 0 1 1))) \/ bound s i == limit i)) /\
    (exists i, (i < length ts)%nat /\ nth i pps 0 == 0 /\ bound s i == limit i).
Proof.
  intros L m ts pps Hm Hrt Hne E mq K bound limit. destruct (asserted _ _ _ _ Hrt E) as (Hts & HU & Hz & Epps). change (Task 0 1 1) with dtask in *.
  assert (Hl : length pps = length ts) by (rewrite Epps; apply map_length). split; [exact Hl|].
  assert (Hb : forall i, (i < length ts)%nat -> In (nth i ts dtask) ts) by (intros i Hi; apply nth_In, Hi).
  assert (Hp : forall i, (i < length ts)%nat -> nth i pps 0 = pp_of ts m L (nth i ts dtask)) by (intros i Hi; rewrite Epps; apply pps_nth, Hi).
  assert (Eb : forall i, (i < length ts)%nat -> bound (gs_val L ts (Z.of_nat m)) i == limit i - (rel_point L (Z.of_nat m) (nth i ts dtask) - gs_val L ts (Z.of_nat m) - nth i pps 0)).
  { intros i Hi. unfold bound, limit. rewrite (z_point ts m L Hm). unfold zdivq. fold mq. ring. }
  exists (gs_val L ts (Z.of_nat m)). split; [exact (z_s ts m L Hts Hne Hm HU Hz)|]. split; [|split; [|split]].
  - intros A A1 A2 A3. unfold mq. rewrite Epps, (delaying_eq L ts m _ A A2). apply (z_top ts m L Hts Hne Hm HU Hz). split; [exact A1|]. split; [exact A2|exact A3].
  - destruct (z_tight ts m L Hts Hne Hm HU Hz) as (A & (A1 & A2 & A3) & EA). exists A. split; [exact A1|]. split; [exact A2|]. split; [exact A3|].
    unfold mq. rewrite Epps, (delaying_eq L ts m _ A A2). exact EA.
  - intros i Hi. destruct (z_pp ts m L Hts Hne Hm HU _ (Hb i Hi)) as (P1 & P2 & P3 & P4 & P5). rewrite <- Hp in P2, P3, P4, P5 by exact Hi.
    pose proof (Eb i Hi) as Ei. split; [exact P2|]. split; [exact P3|]. split; [lra|]. destruct P5 as [P5|P5]; [right|left]; lra.
  - destruct (z_min ts m L Hts Hne HU) as (_ & t & Ht & Es). destruct (In_nth _ _ dtask Ht) as (i & Hi & Ei). exists i. split; [exact Hi|].
    destruct (z_pp ts m L Hts Hne Hm HU _ (Hb i Hi)) as (P1 & P2 & P3 & P4 & P5). rewrite <- Hp in P2, P4 by exact Hi.
    pose proof (Eb i Hi) as Q. rewrite Ei in *. rewrite <- Es in *. split; lra.
Qed.
Print Assumptions C78_compliance.

(** ** Safety: scheduled by these priority points, every job of the i-th task completes
    within L * D_i of its arrival, whatever the tasks release. *)
Theorem C78_safe : forall zero (m : nat) ts pps, (1 <= m)%nat -> Forall rt_task ts ->
  gfrl_response_bounds (Some zero) (Z.of_nat m) ts = GfrlTypeError pps ->
  forall js sc,
    legal_seq (map (fun t => Promise (t_cost t) (t_period t) 0) ts) js ->
    gvalid (length ts) m js sc -> gel_q pps (length ts) m js sc ->
    forall j t, nth_error ts (fst j) = Some t -> responds js sc j (Qfloor (zero * inject_Z (t_deadline t))).
Proof.
  intros L m ts pps Hm Hrt E js sc Hl Hv Hg j t Et.
  assert (Hj : (fst j < length ts)%nat) by (apply nth_error_Some; congruence).
  assert (Hne : ts <> []) by (intros ->; cbn in Hj; lia).
  destruct (C78_compliance L m ts pps Hm Hrt Hne E) as (Hlen & s & S1 & S2 & _ & S4 & _).
  destruct (asserted _ _ _ _ Hrt E) as (Hts & HU & _ & _).
  pose proof (rational_safe ts pps m s Hts Hlen) as R. cbv zeta in R.
  assert (Ht : nth (fst j) ts dtask = t) by (apply nth_error_nth; exact Et).
  destruct (S4 (fst j) Hj) as (_ & _ & B & _). change (Task 0 1 1) with dtask in *. rewrite Ht in B.
  eapply responds_mono; [|apply R; try assumption].
  - apply Qfloor_resp_le. rewrite Ht. unfold zdivq. exact B.
  - intros i Hi. destruct (S4 i Hi) as (X1 & X2 & _). split; [exact X1|exact X2].
  - intros A (A1 & A2 & A3). apply S2; assumption.
  - rewrite map_map. exact Hl.
Qed.
Print Assumptions C78_safe.

(** ** The function is decreasing, so that it has at most one zero: what passes the
    assertion does not depend on the search. *)
Section Decreasing.
  Variables (ts : taskset) (m : nat).
  Hypothesis Hts : Forall srt_task ts.
  Hypothesis HD : Forall (fun t => 1 <= t_deadline t)%Z ts.
  Hypothesis Hne : ts <> [].
  Hypothesis Hm : (1 <= m)%nat.
  Hypothesis HU : ts_utilization ts None <= inject_Z (Z.of_nat m).
  Let mz := Z.of_nat m.
  Let K := Z.to_nat (Qceiling (ts_utilization ts None) - 1).
  Let Sn L i := Si_val (nth i ts dtask) L ts mz.
  Let Gn L i := Gi_val (nth i ts dtask) L ts mz.
  Let U i := utilization (nth i ts dtask).

  Lemma d_Gnth : forall L i, (i < length ts)%nat -> nth i (map (fun t => Gi_val t L ts mz) ts) 0 = Gn L i.
  Proof.
    intros L i Hi. rewrite (nth_indep _ 0 (Gi_val dtask L ts mz)) by (rewrite map_length; exact Hi).
    rewrite (map_nth (fun t => Gi_val t L ts mz)). reflexivity.
  Qed.

  Lemma d_s : forall a b, a <= b -> gs_val a ts mz + (b - a) <= gs_val b ts mz.
  Proof.
    intros a b Hab. destruct (z_min ts m b Hts Hne HU) as (_ & t & Ht & Es). destruct (z_min ts m a Hts Hne HU) as (A & _). specialize (A t Ht). fold mz in A, Es.
    rewrite Es. rewrite Forall_forall in HD. specialize (HD t Ht). rewrite Zle_Qle in HD. change (inject_Z 1) with 1 in HD.
    unfold rel_point in *. nra.
  Qed.

  Lemma d_S : forall a b i, a <= b -> (i < length ts)%nat -> Sn b i - Sn a i <= U i * (gs_val b ts mz - gs_val a ts mz) - U i * (b - a).
  Proof.
    intros a b i Hab Hi. pose proof (d_s a b Hab) as Hs. assert (Ht : In (nth i ts dtask) ts) by (apply nth_In; exact Hi).
    destruct (z_task ts m Hts Hm _ Ht) as (_ & _ & _ & Hu & _). fold (U i) in Hu.
    rewrite Forall_forall in HD. specialize (HD _ Ht). rewrite Zle_Qle in HD. change (inject_Z 1) with 1 in HD.
    unfold Sn, Si_val. cbv zeta. change (zdivq (t_cost (nth i ts dtask)) (t_period (nth i ts dtask))) with (U i).
    set (D := inject_Z (t_deadline (nth i ts dtask))) in *. set (c := zdivq ((mz - 1) * t_cost (nth i ts dtask)) mz). set (C := inject_Z (t_cost (nth i ts dtask))).
    set (sa := gs_val a ts mz) in *. set (sb := gs_val b ts mz) in *.
    assert (X : U i * (b - a) <= U i * (sb - sa)) by nra. assert (Y : 0 <= U i * ((b - a) * (D - 1))) by (apply Qmult_le_0_compat; [exact Hu|apply Qmult_le_0_compat; lra]).
    destruct (qltb (C - U i * (b * D - c - sb)) 0) eqn:Eb; destruct (qltb (C - U i * (a * D - c - sa)) 0) eqn:Ea;
      try apply qltb_iff in Eb; try apply qltb_iff in Ea; try apply qltb_false in Eb; try apply qltb_false in Ea; lra.
  Qed.

  Lemma d_func : forall a b, a <= b ->
    func_val b ts mz - func_val a ts mz <=
      (ts_utilization ts None - inject_Z mz) * (gs_val b ts mz - gs_val a ts mz) - (ts_utilization ts None - inject_Z (Z.of_nat K)) * (b - a).
  Proof.
    intros a b Hab. pose proof (d_s a b Hab) as Hs. destruct (z_K ts m Hts Hm HU) as (_ & HK).
    destruct (largest_witness (map (fun t => Gi_val t b ts mz) ts) (Qceiling (ts_utilization ts None) - 1)) as (A & HA & EA); [rewrite map_length; exact HK|].
    rewrite map_length in HA. pose proof (largest_sum (map (fun t => Gi_val t a ts mz) ts) (Qceiling (ts_utilization ts None) - 1) A) as LA.
    rewrite map_length in LA. specialize (LA HA). destruct HA as (A1 & A2 & A3).
    rewrite (qs_ext _ _ (Gn b)) in EA by (intros i Hi; rewrite d_Gnth by (apply A2, Hi); reflexivity).
    rewrite (qs_ext _ _ (Gn a)) in LA by (intros i Hi; rewrite d_Gnth by (apply A2, Hi); reflexivity).
    unfold func_val, G_val. rewrite EA.
    set (sa := gs_val a ts mz) in *. set (sb := gs_val b ts mz) in *.
    set (R := filter (fun i => negb (existsb (Nat.eqb i) A)) (seq 0 (length ts))).
    assert (HR : forall i, In i R -> (i < length ts)%nat) by (intros i Hi; apply filter_In in Hi; destruct Hi as (Hi & _); apply in_seq in Hi; lia).
    assert (P : forall f : nat -> Q, qsum (map f (seq 0 (length ts))) == qsum (map f A) + qsum (map f R)).
    { intros f. rewrite <- qs_app. apply qs_perm. symmetry. apply index_complement; assumption. }
    assert (ES : forall L, S_val L ts mz == qsum (map (Sn L) A) + qsum (map (Sn L) R)).
    { intros L. unfold S_val. rewrite (map_index _ _ _ dtask). apply (P (Sn L)). }
    assert (EU : ts_utilization ts None == qsum (map U A) + qsum (map U R)).
    { cbn [ts_utilization]. rewrite (map_index _ _ _ dtask). apply (P U). }
    assert (E1 : qsum (map (fun i => Sn b i + Gn b i) A) == qsum (map (fun i => (Sn a i + Gn a i) + U i * (sb - sa)) A)).
    { apply qs_ext. intros i Hi. unfold Gn, Gi_val. fold sa sb. change (zdivq (t_cost (nth i ts dtask)) (t_period (nth i ts dtask))) with (U i).
      unfold Sn. ring. }
    assert (E2 : qsum (map (Sn b) R) <= qsum (map (fun i => Sn a i + U i * (sb - sa - (b - a))) R)).
    { apply qs_le. intros i Hi. pose proof (d_S a b i Hab (HR i Hi)) as X. fold sa sb in X. lra. }
    rewrite !qs_add, !qs_mul in E1. rewrite !qs_add, !qs_mul in E2. rewrite (ES a), (ES b).
    assert (E3 : ts_utilization ts None * (sb - sa) == qsum (map U A) * (sb - sa) + qsum (map U R) * (sb - sa)) by (rewrite EU; ring).
    assert (E4 : qsum (map U A) <= inject_Z (Z.of_nat K)).
    { eapply Qle_trans; [apply (qs_le _ U (fun _ => 1))|rewrite qs_const, A3; unfold K; lra].
      intros i Hi. apply (z_task ts m Hts Hm). apply nth_In, A2, Hi. }
    assert (E5 : 0 <= (qsum (map U R) - (ts_utilization ts None - inject_Z (Z.of_nat K))) * (b - a)) by (apply Qmult_le_0_compat; lra). lra.
  Qed.
End Decreasing.

Theorem C78_decreasing : forall (m : nat) ts a b, (1 <= m)%nat -> Forall rt_task ts -> Forall (fun t => 1 <= t_deadline t)%Z ts ->
  has_bounded_tardiness (Z.of_nat m) ts = true -> ts <> [] -> a < b ->
  func_val b ts (Z.of_nat m) < func_val a ts (Z.of_nat m).
Proof.
  intros m ts a b Hm Hrt HD Hb Hne Hab. destruct (bounded_srt _ _ Hrt Hb) as (Hts & HU).
  pose proof (d_func ts m Hts HD Hne Hm HU a b ltac:(lra)) as F. pose proof (d_s ts m Hts HD Hne HU a b ltac:(lra)) as G.
  set (U := ts_utilization ts None) in *. set (ds := gs_val b ts (Z.of_nat m) - gs_val a ts (Z.of_nat m)) in *. assert (Hds : 0 < ds) by (unfold ds; lra).
  set (mq := inject_Z (Z.of_nat m)) in *. assert (Hmq : 1 <= mq) by (unfold mq; change 1 with (inject_Z 1); rewrite <- Zle_Qle; lia).
  assert (U0 : 0 <= U).
  { unfold U. cbn [ts_utilization]. apply qs_nonneg. intros t Ht. apply (z_task ts m Hts Hm t Ht). }
  set (K := Z.to_nat (Qceiling U - 1)) in *.
  assert (HK : inject_Z (Z.of_nat K) < U \/ (inject_Z (Z.of_nat K) == 0 /\ U == 0)).
  { destruct (Z_le_gt_dec (Qceiling U) 0) as [C|C].
    - right. assert (K = 0%nat) as -> by (unfold K; lia). split; [reflexivity|]. pose proof (Qle_ceiling U) as X.
      rewrite Zle_Qle in C. change (inject_Z 0) with 0 in C. lra.
    - left. unfold K. rewrite Z2Nat.id by lia. pose proof (Qceiling_lt U) as X. exact X. }
  destruct HK as [HK|[HK1 HK2]].
  - assert (0 <= (mq - U) * ds) by (apply Qmult_le_0_compat; lra). assert (0 < (U - inject_Z (Z.of_nat K)) * (b - a)) by nra. lra.
  - assert (0 < (mq - U) * ds) by nra. assert (0 <= (U - inject_Z (Z.of_nat K)) * (b - a)) by (apply Qmult_le_0_compat; lra). lra.
Qed.
Print Assumptions C78_decreasing.

Theorem C78_unique : forall (m : nat) ts a b pa pb, (1 <= m)%nat -> Forall rt_task ts -> Forall (fun t => 1 <= t_deadline t)%Z ts -> ts <> [] ->
  gfrl_response_bounds (Some a) (Z.of_nat m) ts = GfrlTypeError pa ->
  gfrl_response_bounds (Some b) (Z.of_nat m) ts = GfrlTypeError pb -> a == b.
Proof.
  intros m ts a b pa pb Hm Hrt HD Hne Ea Eb. destruct (asserted _ _ _ _ Hrt Ea) as (Hts & HU & Za & _). destruct (asserted _ _ _ _ Hrt Eb) as (_ & _ & Zb & _).
  assert (Hb : has_bounded_tardiness (Z.of_nat m) ts = true).
  { unfold gfrl_response_bounds in Ea. destruct (has_bounded_tardiness (Z.of_nat m) ts); [reflexivity|discriminate]. }
  destruct (Q_dec a b) as [[H|H]|H]; [| |exact H]; exfalso; pose proof (C78_decreasing m ts _ _ Hm Hrt HD Hb Hne H); lra.
Qed.
Print Assumptions C78_unique.

(** ** Finding: no bounds are ever returned *)
Definition gfrl_ts := [Task 2 4 4; Task 3 5 5; Task 4 6 3].
Definition gfrl_zero : Q := 104 # 47.
Definition gfrl_points : list Q := Eval vm_compute in gfrl_pps gfrl_zero gfrl_ts 2.

Example C78_sample : has_bounded_tardiness 2 gfrl_ts = true /\ gfrl_response_bounds (Some gfrl_zero) 2 gfrl_ts = GfrlTypeError gfrl_points /\
  gfrl_response_bounds (Some 2) 2 gfrl_ts = GfrlAssertion /\
  map Qred (gfrl_pps gfrl_zero gfrl_ts 2) = [151 # 47; 463 # 94; 0] /\
  map (fun t => Qfloor (gfrl_zero * inject_Z (t_deadline t))) gfrl_ts = [8; 11; 6]%Z.
Proof. vm_compute. repeat split. Qed.

Theorem C78_returns_refuted : exists ts (m : nat) zero, Forall rt_task ts /\ has_bounded_tardiness (Z.of_nat m) ts = true /\
  func_val zero ts (Z.of_nat m) == 0 /\
  forall search bounds, gfrl_response_bounds search (Z.of_nat m) ts <> GfrlBounds bounds.
Proof.
  exists gfrl_ts, 2%nat, gfrl_zero. split; [|split; [vm_compute; reflexivity|split; [vm_compute; reflexivity|]]].
  - repeat constructor; cbn; lia.
  - intros search bounds. unfold gfrl_response_bounds. destruct (negb _); [discriminate|]. destruct search as [z|]; [|discriminate].
    destruct (Qeq_bool _ 0); discriminate.
Qed.
Print Assumptions C78_returns_refuted.

(** A schedule that meets the hypotheses of C78_safe: three jobs of length 1 at time 0. *)
Definition gfrl_jobs : jobseq := JobSeq (fun _ k => 6 * k)%nat (fun _ k => 6 * k)%nat (fun _ k => match k with O => 1%nat | _ => 0%nat end).
Definition gfrl_sc : gschedule := fun t => match t with O => [(2, 0); (0, 0)]%nat | 1%nat => [(1, 0)]%nat | _ => [] end.

Lemma gfrl_service : forall j t, gservice gfrl_sc j (2 + t) = gservice gfrl_sc j 2.
Proof. intros j. induction t as [|t IH]; [reflexivity|]. cbn [Nat.add] in *. change (gservice gfrl_sc j (S (S (S t)))) with (gservice gfrl_sc j (S (S t)) + 0)%Z. lia. Qed.

Example C78_schedule : legal_seq (map (fun t => Promise (t_cost t) (t_period t) 0) gfrl_ts) gfrl_jobs /\
  gvalid 3 2 gfrl_jobs gfrl_sc /\ gel_q gfrl_points 3 2 gfrl_jobs gfrl_sc /\ ~ gcompleted gfrl_jobs gfrl_sc (1, 0)%nat 1.
Proof.
  split; [|split; [|split]].
  - intros i p E k. destruct i as [|[|[|i]]]; cbn in E; [| | |destruct i; discriminate]; inversion E; subst p; cbn [pr_cost pr_period pr_jitter arr rel cst gfrl_jobs];
      destruct k; lia.
  - intros [|[|t]]; (split; [cbn; lia|]; split; [repeat constructor; cbn; intuition congruence|]); intros j Hj; cbn in Hj;
      repeat (destruct Hj as [<-|Hj]; [split; [cbn; lia|split; [cbn; lia|split; [vm_compute; reflexivity|intros k Hk; cbn in Hk; lia]]]|]); destruct Hj.
  - intros t (i, k) Hi (R1 & R2 & R3) Hn. cbn [fst snd] in *. destruct k as [|k]; [|exfalso; cbn [cst gfrl_jobs] in R2;
      pose proof (sumf_nonneg (fun u => b2z (gruns gfrl_sc (i, S k) u)) t) as N; unfold gservice in R2;
      specialize (N ltac:(intros u _; cbv beta; destruct (gruns gfrl_sc (i, S k) u); cbn; lia)); lia].
    destruct t as [|[|t]].
    + destruct i as [|[|[|i]]]; [exfalso; apply Hn; cbn; auto| |exfalso; apply Hn; cbn; auto|lia].
      split; [reflexivity|]. intros j' [<-|[<-|[]]]; vm_compute; discriminate.
    + exfalso. destruct i as [|[|[|i]]]; [vm_compute in R2; discriminate|apply Hn; cbn; auto|vm_compute in R2; discriminate|lia].
    + exfalso. rewrite (gfrl_service _ t) in R2. destruct i as [|[|[|i]]]; [vm_compute in R2; discriminate..|lia].
  - intros C. vm_compute in C. apply C. reflexivity.
Qed.
