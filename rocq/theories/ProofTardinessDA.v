(** The tardiness bound of da.py. *)
From Coq Require Import ZArith QArith Qround Lqa List Bool Lia Permutation Sorted.
From Verif Require Import Base SpecUni SpecQPA SpecGlobal SpecTardiness ModelTasks ProofTasks ModelTardiness
  ProofGlobal ProofGELCost ProofTardiness ProofTardinessExact ProofTardinessSafe ProofTardinessTop.
Import ListNotations.
Open Scope Q_scope.

Lemma firstn_le_sum : forall k (l : list Q), (forall x, In x l -> 0 <= x) -> qsum (firstn k l) <= qsum l.
Proof.
  induction k as [|k IH]; intros l H.
  - cbn [firstn]. change (qsum []) with 0. rewrite <- (map_id l). apply qs_nonneg. exact H.
  - destruct l as [|x l]; [cbn; lra|]. cbn [firstn]. rewrite !qs_cons. specialize (IH l (fun y Hy => H y (or_intror Hy))). lra.
Qed.

Lemma firstn_le_len : forall k (l : list Q), (forall x, In x l -> x <= 1) -> qsum (firstn k l) <= inject_Z (Z.of_nat k).
Proof.
  induction k as [|k IH]; intros l H.
  - cbn [firstn]. change (qsum []) with 0. change (inject_Z (Z.of_nat 0)) with 0. lra.
  - destruct l as [|x l]; [cbn [firstn]; change (qsum []) with 0; change 0 with (inject_Z 0); rewrite <- Zle_Qle; lia|].
    cbn [firstn]. rewrite qs_cons, Nat2Z.inj_succ, <- Z.add_1_r, inject_Z_plus. change (inject_Z 1) with 1.
    specialize (IH l (fun y Hy => H y (or_intror Hy))). specialize (H x (or_introl eq_refl)). lra.
Qed.

Lemma utils_range : forall ts x, Forall srt_task ts -> In x (sort_desc (map utilization ts)) -> 0 <= x <= 1.
Proof.
  intros ts x H Hx. eapply Permutation_in in Hx; [|symmetry; apply sort_desc_perm]. apply in_map_iff in Hx. destruct Hx as [t [<- Ht]].
  rewrite Forall_forall in H. destruct (H t Ht) as [[H1 H2] H3]. unfold utilization, zdivq.
  rewrite Zle_Qle in H1, H2, H3. change (inject_Z 0) with 0 in H1. change (inject_Z 1) with 1 in H3.
  split; [apply Qle_shift_div_l; lra|apply Qle_shift_div_r; lra].
Qed.

(** the remaining capacity is positive *)
Lemma capacity_pos : forall (m : Z) ts, (1 < m)%Z -> Forall srt_task ts -> ts_utilization ts None <= inject_Z m ->
  0 < inject_Z m - qsum (py_prefix (Qceiling (ts_utilization ts None) - 1 - 1) (sort_desc (map utilization ts))).
Proof.
  intros m ts Hm Hts HU. set (uc := Qceiling (ts_utilization ts None)).
  assert (Huc : (uc <= m)%Z) by (rewrite <- (Qceiling_Z m); apply Qceiling_resp_le; exact HU).
  assert (Hsum : qsum (sort_desc (map utilization ts)) == ts_utilization ts None).
  { unfold ts_utilization. rewrite !qsum_total. apply total_perm. symmetry. apply sort_desc_perm. }
  unfold py_prefix. destruct (uc - 1 - 1 <? 0)%Z eqn:E.
  - apply Z.ltb_lt in E. pose proof (firstn_le_sum (length (sort_desc (map utilization ts)) - Z.to_nat (- (uc - 1 - 1))) (sort_desc (map utilization ts))
      (fun x Hx => proj1 (utils_range ts x Hts Hx))) as G.
    assert (ts_utilization ts None <= inject_Z uc) by apply Qle_ceiling.
    assert (inject_Z uc < inject_Z m) by (rewrite <- Zlt_Qlt; lia). lra.
  - apply Z.ltb_ge in E. pose proof (firstn_le_len (Z.to_nat (uc - 1 - 1)) (sort_desc (map utilization ts))
      (fun x Hx => proj2 (utils_range ts x Hts Hx))) as G.
    rewrite Z2Nat.id in G by lia. assert (inject_Z (uc - 1 - 1) < inject_Z m) by (rewrite <- Zlt_Qlt; lia). lra.
Qed.

Lemma qmax0_nonneg : forall q, 0 <= qmax0 q.
Proof.
  intros q. unfold qmax0. destruct (Qle_bool q 0) eqn:E; [lra|]. destruct (Qlt_le_dec q 0) as [L|L]; [|exact L].
  apply Qlt_le_weak, Qle_bool_iff in L. congruence.
Qed.

Lemma qmax0_ge : forall q, q <= qmax0 q.
Proof. intros q. unfold qmax0. destruct (Qle_bool q 0) eqn:E; [apply Qle_bool_iff in E; exact E|apply Qle_refl]. Qed.

Lemma tardiness_total : forall (m : Z) ts preemptive, Forall rt_task ts ->
  (task_tardiness_bound m ts preemptive = None <-> has_bounded_tardiness m ts = false).
Proof.
  intros m ts pr Hw. unfold task_tardiness_bound. destruct (has_bounded_tardiness m ts) eqn:Hb; cbn [negb]; [|tauto].
  split; [|discriminate]. destruct (bounded_srt m ts Hw Hb) as [Hts HU]. destruct (1 <? m)%Z eqn:Em; [|discriminate]. apply Z.ltb_lt in Em.
  pose proof (capacity_pos m ts Em Hts HU) as Hc.
  assert (E : Qle_bool (inject_Z m - qsum (py_prefix (Qceiling (ts_utilization ts None) - 1 - 1) (sort_desc (map utilization ts)))) 0 = false).
  { apply not_true_iff_false. rewrite Qle_bool_iff. lra. }
  destruct pr.
  - unfold tardiness_x. destruct ts as [|t ts]; [discriminate|]. replace (m =? 1)%Z with false by (symmetry; apply Z.eqb_neq; lia).
    cbv zeta. rewrite E. discriminate.
  - unfold np_tardiness_x. destruct ts as [|t ts]; [discriminate|]. cbv zeta. rewrite E. discriminate.
Qed.

Lemma tardiness_nonneg : forall (m : Z) ts x, Forall rt_task ts -> task_tardiness_bound m ts true = Some x -> (0 <= x)%Z.
Proof.
  intros m ts x Hw H. unfold task_tardiness_bound in H. destruct (has_bounded_tardiness m ts) eqn:Hb; cbn [negb] in H; [|discriminate].
  destruct (bounded_srt m ts Hw Hb) as [Hts HU]. destruct (1 <? m)%Z eqn:Em; [|inversion H; lia]. apply Z.ltb_lt in Em.
  pose proof (capacity_pos m ts Em Hts HU) as Hc. unfold tardiness_x in H. destruct ts as [|t ts]; [inversion H; lia|].
  replace (m =? 1)%Z with false in H by (symmetry; apply Z.eqb_neq; lia). cbv zeta in H.
  set (c := inject_Z m - _) in *. set (q := qmax0 _) in *. destruct (Qle_bool c 0) eqn:E; [discriminate|]. inversion H; subst x.
  change 0%Z with (Qceiling 0). apply Qceiling_resp_le. apply Qle_shift_div_l; [exact Hc|]. pose proof (qmax0_nonneg (qsum (py_prefix (Qceiling (ts_utilization (t :: ts) None) - 1)
    (sort_desc (map (fun t0 => inject_Z (t_cost t0)) (t :: ts)))) - last (sort_desc (map (fun t0 => inject_Z (t_cost t0)) (t :: ts))) 0)) as G.
  fold q in G. lra.
Qed.

Lemma top_index : forall (ts : taskset) (f : task -> Q) A k, (forall t, In t ts -> 0 <= f t) -> NoDup A -> (forall j, In j A -> (j < length ts)%nat) ->
  (length A <= k)%nat -> qsum (map (fun j => f (nth j ts dtask)) A) <= qsum (firstn k (sort_desc (map f ts))).
Proof.
  intros ts f A k Hf HA1 HA2 HA3. rewrite qsum_total. change (qsum (firstn k (sort_desc (map f ts)))) with (topsum ts f k).
  apply topsum_upper_le with (k := length A); [assumption|assumption|].
  split; [apply map_length|]. exists (map (fun j => f (nth j ts dtask)) (filter (fun i => negb (existsb (Nat.eqb i) A)) (seq 0 (length ts)))).
  rewrite <- map_app. assert (E : map f ts = map (fun j => f (nth j ts dtask)) (seq 0 (length ts))).
  { rewrite <- (map_map (fun j => nth j ts dtask) f). f_equal. clear. induction ts as [|t ts IH]; [reflexivity|].
    cbn [length seq map nth]. f_equal. rewrite <- seq_shift, map_map. exact IH. }
  rewrite E. apply Permutation_map. apply index_complement; assumption.
Qed.

Lemma last_smallest : forall l, StronglySorted qge l -> l <> [] -> In (last l 0) l /\ forall x, In x l -> last l 0 <= x.
Proof.
  induction l as [|a l IH]; intros H Hn; [contradiction|]. inversion_clear H as [|? ? Hs Hf]. destruct l as [|b l].
  - cbn. split; [left; reflexivity|]. intros x [<-|[]]. lra.
  - destruct (IH Hs ltac:(discriminate)) as [I1 I2]. change (last (a :: b :: l) 0) with (last (b :: l) 0). split; [right; assumption|].
    intros x [<-|Hx]; [|apply I2; assumption]. rewrite Forall_forall in Hf. specialize (Hf _ I1). unfold qge in Hf. exact Hf.
Qed.

(** The argument of Devi and Anderson: x need only account for K costs and K-1
    utilizations. *)
Lemma da_safe : forall (m : nat) ts (x e : Z), (1 <= m)%nat -> Forall srt_task ts -> ts_utilization ts None <= inject_Z (Z.of_nat m) -> (0 <= x)%Z ->
  (forall t, In t ts -> (e <= t_cost t)%Z) ->
  let K := Z.to_nat (Qceiling (ts_utilization ts None) - 1) in
  qsum (firstn K (sort_desc (map (fun t => inject_Z (t_cost t)) ts))) + qsum (firstn (K - 1) (sort_desc (map utilization ts))) * inject_Z x
    <= inject_Z (Z.of_nat m) * inject_Z x + inject_Z e ->
  gel_responses (map cp_of ts) (map t_period ts) m (map (fun t => t_period t + t_cost t + x)%Z ts).
Proof.
  intros m ts x e Hm Hts HU Hx He K Hc jobs sc Hl Hv Hpol j b Hj Eb. rewrite map_length in *.
  rewrite nth_error_map, (nth_error_nth' ts dtask Hj) in Eb. cbn in Eb. inversion Eb; subst b.
  set (tk i := nth i ts dtask). set (C i := t_cost (tk i)). set (T i := t_period (tk i)). set (P := prod_periods ts). set (p i := (P / T i * C i)%Z).
  assert (Hlen : length (map t_period ts) = length ts) by apply map_length.
  assert (HP : (0 < P)%Z) by (apply prod_periods_pos; exact Hts).
  assert (HPq : 0 < inject_Z P) by (change 0 with (inject_Z 0); rewrite <- Zlt_Qlt; exact HP).
  assert (Hpi : forall i, (i < length ts)%nat -> (p i * T i = P * C i)%Z) by (intros i Hi; exact (s_p ts (map t_period ts) m Hts Hlen Hm i Hi)).
  assert (Hti : forall i, (i < length ts)%nat -> (0 <= C i <= T i /\ 1 <= T i)%Z) by (intros i Hi; exact (s_task ts Hts i Hi)).
  assert (Hpu : forall i, (i < length ts)%nat -> inject_Z (p i) == inject_Z P * utilization (tk i)) by (intros i Hi; exact (s_pu ts (map t_period ts) m Hts Hlen Hm i Hi)).
  destruct (s_K ts (map t_period ts) m Hts Hlen Hm HU) as [HKm [HKn HKu]]. fold K in HKm, HKn, HKu.
  replace (t_period (nth (fst j) ts dtask) + t_cost (nth (fst j) ts dtask) + x)%Z with (T (fst j) + x + C (fst j))%Z by (unfold T, C, tk; lia).
  apply (da_bound (length ts) m K jobs sc C T p P x (P * (Z.of_nat m * x + e))%Z HP); try assumption.
  - intros i Hi. specialize (Hti i Hi). specialize (Hpi i Hi). repeat split; lia.
  - rewrite Zle_Qle, sumf_seq, inject_Z_mult. rewrite (qs_ext _ _ (fun i => utilization (tk i) * inject_Z P)).
    + rewrite qs_mul. pose proof (s_util ts) as E. cbv zeta in E. fold tk in E. rewrite <- E. nra.
    + intros i Hi. apply in_seq in Hi. rewrite (Hpu i) by lia. ring.
  - lia.
  - intros A A0 HA1 HA2 HB1 HB2 HA3 HB3.
    assert (Hr : forall t, In t ts -> 0 <= utilization t).
    { intros t Ht. apply (utils_range ts); [assumption|]. eapply Permutation_in; [apply sort_desc_perm|]. apply in_map. assumption. }
    assert (Hcn : forall t, In t ts -> 0 <= inject_Z (t_cost t)).
    { intros t Ht. change 0 with (inject_Z 0). rewrite <- Zle_Qle. rewrite Forall_forall in Hts. destruct (Hts t Ht) as [[? ?] ?]. lia. }
    pose proof (top_index ts (fun t => inject_Z (t_cost t)) A K Hcn HA1 HA2 HA3) as TA.
    pose proof (top_index ts utilization A0 (K - 1) Hr HB1 (fun j Hj => HA2 j (HB2 j Hj)) HB3) as TB.
    rewrite Zle_Qle, inject_Z_plus, !zsum_inject, inject_Z_mult, inject_Z_plus, inject_Z_mult.
    assert (EA : qsum (map (fun j0 => inject_Z (P * C j0)) A) == qsum (map (fun j0 => inject_Z (t_cost (nth j0 ts dtask))) A) * inject_Z P).
    { rewrite <- qs_mul. apply qs_ext. intros i _. rewrite inject_Z_mult. unfold C, tk. ring. }
    assert (EB : qsum (map (fun j0 => inject_Z (p j0 * x)) A0) == qsum (map (fun j0 => utilization (nth j0 ts dtask)) A0) * (inject_Z P * inject_Z x)).
    { rewrite <- qs_mul. apply qs_ext. intros i Hi. rewrite inject_Z_mult, (Hpu i) by (apply HA2, HB2; assumption). unfold tk. ring. }
    rewrite EA, EB. rewrite Zle_Qle in Hx. change (inject_Z 0) with 0 in Hx.
    set (a := qsum (map _ A)) in *. set (b := qsum (map _ A0)) in *.
    set (ta := qsum (firstn K _)) in *. set (tb := qsum (firstn (K - 1) _)) in *.
    assert (b * inject_Z x <= tb * inject_Z x) by (apply Qmult_le_compat_r; assumption). nra.
  - intros i Hi. apply Z.mul_lt_mono_pos_l; [exact HP|]. assert (e <= C i)%Z by (apply He; apply nth_In; assumption). lia.
  - apply legal_unpack. exact Hl.
  - intros t j0 Hj0 Hr Hni. destruct (Hpol t j0 Hj0 Hr Hni) as [H1 H2]. split; [exact H1|]. intros j' Hj'. specialize (H2 j' Hj').
    unfold prio_point in H2. destruct (Hv t) as [_ [_ Hv3]]. destruct (Hv3 j' Hj') as [Hj'n _].
    assert (Epp : forall i, (i < length ts)%nat -> nth i (map t_period ts) 0%Z = T i).
    { intros i Hi. rewrite (nth_indep _ 0%Z (t_period dtask)) by (rewrite map_length; exact Hi). rewrite map_nth. reflexivity. }
    rewrite !Epp in H2 by assumption. exact H2.
Qed.

(** x as computed meets the condition. *)
Lemma tardiness_covers : forall (m : nat) ts x, (1 <= m)%nat -> Forall rt_task ts -> ts <> [] -> task_tardiness_bound (Z.of_nat m) ts true = Some x ->
  exists e : Z, (forall t, In t ts -> (e <= t_cost t)%Z) /\
  let K := Z.to_nat (Qceiling (ts_utilization ts None) - 1) in
  qsum (firstn K (sort_desc (map (fun t => inject_Z (t_cost t)) ts))) + qsum (firstn (K - 1) (sort_desc (map utilization ts))) * inject_Z x
    <= inject_Z (Z.of_nat m) * inject_Z x + inject_Z e.
Proof.
  intros m ts x Hm Hw Hne H. pose proof (tardiness_nonneg _ _ _ Hw H) as Hx. unfold task_tardiness_bound in H.
  destruct (has_bounded_tardiness (Z.of_nat m) ts) eqn:Hb; cbn [negb] in H; [|discriminate]. destruct (bounded_srt _ _ Hw Hb) as [Hts HU].
  set (by_cost := sort_desc (map (fun t => inject_Z (t_cost t)) ts)).
  assert (Hne' : by_cost <> []).
  { unfold by_cost. intros E. pose proof (Permutation_length (sort_desc_perm (map (fun t => inject_Z (t_cost t)) ts))) as L. rewrite E, map_length in L. destruct ts; [contradiction|discriminate]. }
  destruct (last_smallest by_cost (sort_desc_sorted _) Hne') as [I1 I2].
  assert (I3 := I1). unfold by_cost in I3 at 2. eapply Permutation_in in I3; [|symmetry; apply sort_desc_perm].
  apply in_map_iff in I3. destruct I3 as [t0 [E0 Ht0]].
  assert (Hmin : forall t, In t ts -> (t_cost t0 <= t_cost t)%Z).
  { intros t Ht. rewrite Zle_Qle, E0. apply I2. unfold by_cost. eapply Permutation_in; [apply sort_desc_perm|]. apply in_map_iff. exists t. split; [reflexivity|assumption]. }
  exists (t_cost t0). split; [exact Hmin|]. intros K.
  assert (C0 : 0 <= inject_Z (t_cost t0)) by (change 0 with (inject_Z 0); rewrite <- Zle_Qle; rewrite Forall_forall in Hts; destruct (Hts t0 Ht0) as [[? ?] ?]; lia).
  assert (Hxq := Hx). rewrite Zle_Qle in Hxq. change (inject_Z 0) with 0 in Hxq.
  assert (Mq : 0 <= inject_Z (Z.of_nat m)) by (change 0 with (inject_Z 0); rewrite <- Zle_Qle; lia).
  assert (Triv : K = O -> qsum (firstn K by_cost) + qsum (firstn (K - 1) (sort_desc (map utilization ts))) * inject_Z x <= inject_Z (Z.of_nat m) * inject_Z x + inject_Z (t_cost t0)).
  { intros ->. cbn [firstn Nat.sub]. change (qsum []) with 0. assert (0 <= inject_Z (Z.of_nat m) * inject_Z x) by (apply Qmult_le_0_compat; assumption). lra. }
  destruct (1 <? Z.of_nat m)%Z eqn:Em.
  - apply Z.ltb_lt in Em. unfold tardiness_x in H. destruct ts as [|t ts]; [contradiction|]. replace (Z.of_nat m =? 1)%Z with false in H by (symmetry; apply Z.eqb_neq; lia).
    cbv zeta in H. fold by_cost in H. set (U := ts_utilization (t :: ts) None) in *.
    destruct (Nat.eq_dec K 0) as [EK|NK]; [apply Triv; assumption|].
    pose proof (capacity_pos (Z.of_nat m) (t :: ts) Em Hts HU) as Hcap. fold U in Hcap.
    assert (P1 : py_prefix (Qceiling U - 1) by_cost = firstn K by_cost) by (unfold py_prefix, K; destruct (Z.ltb_spec (Qceiling U - 1) 0); [unfold K in NK; lia|reflexivity]).
    assert (P2 : py_prefix (Qceiling U - 1 - 1) (sort_desc (map utilization (t :: ts))) = firstn (K - 1) (sort_desc (map utilization (t :: ts)))).
    { unfold py_prefix, K. destruct (Z.ltb_spec (Qceiling U - 1 - 1) 0); [unfold K in NK; lia|]. f_equal. lia. }
    rewrite P1, P2 in H. rewrite P2 in Hcap. destruct (Qle_bool _ 0) eqn:Eq in H; [apply Qle_bool_iff in Eq; lra|].
    inversion H as [Ex]. set (cap := inject_Z (Z.of_nat m) - _) in *. set (rc := qmax0 _) in *.
    assert (R1 : rc / cap <= inject_Z x) by (rewrite <- Ex; apply Qle_ceiling). rewrite Ex.
    assert (R2 : rc <= inject_Z x * cap).
    { apply (Qmult_le_compat_r _ _ cap) in R1; [|lra]. setoid_replace (rc / cap * cap) with rc in R1 by (field; lra). exact R1. }
    assert (R3 : qsum (firstn K by_cost) - last by_cost 0 <= rc).
    { apply qmax0_ge. }
    unfold cap in R2. rewrite <- E0 in R3. cbv zeta. fold by_cost. lra.
  - apply Z.ltb_ge in Em. apply Triv. assert (m = 1%nat) by lia. subst m. apply Qceiling_resp_le in HU. change (Qceiling (inject_Z (Z.of_nat 1))) with 1%Z in HU. unfold K. lia.
Qed.
