(** Lemmas for C78. *)
From Coq Require Import ZArith QArith Qround Lqa List Bool Lia Permutation.
From Verif Require Import Base SpecUni SpecQPA SpecGlobal SpecTardiness ModelTasks ProofTasks ModelTardiness ModelGFRL SpecGFRL
  ProofTardiness ProofTardinessSafe ProofTardinessTop PropTardiness.
Import ListNotations.
Open Scope Q_scope.

(** ** the largest values of a list *)

Lemma list_index : forall l : list Q, l = map (fun i => nth i l 0) (seq 0 (length l)).
Proof.
  induction l as [|x l IH]; [reflexivity|]. cbn [length seq map nth]. f_equal. rewrite <- seq_shift, map_map. exact IH.
Qed.

Lemma largest_sum : forall l k A, index_set (length l) (Z.to_nat k) A ->
  qsum (map (fun i => nth i l 0) A) <= qsum (nlargest k l).
Proof.
  intros l k A [A1 [A2 A3]]. rewrite !qsum_total. unfold nlargest.
  rewrite <- A3, <- (map_length (fun i => nth i l 0) A).
  apply top_max with (rest := map (fun i => nth i l 0) (filter (fun i => negb (existsb (Nat.eqb i) A)) (seq 0 (length l)))).
  - apply sort_desc_sorted.
  - rewrite <- map_app. eapply Permutation_trans; [|apply sort_desc_perm].
    eapply Permutation_trans; [|rewrite (list_index l) at 1; apply Permutation_refl]. apply Permutation_map. apply index_complement; assumption.
Qed.

Lemma largest_witness : forall l k, (Z.to_nat k <= length l)%nat ->
  exists A, index_set (length l) (Z.to_nat k) A /\ qsum (nlargest k l) == qsum (map (fun i => nth i l 0) A).
Proof.
  intros l k Hk.
  assert (Hp : Permutation (sort_desc l) (map (fun i => nth i l 0) (seq 0 (length l)))).
  { rewrite <- list_index. symmetry. apply sort_desc_perm. }
  destruct (Permutation_map_inv _ _ Hp) as [l0 [E P]].
  exists (firstn (Z.to_nat k) l0). split.
  - assert (Hl : length l0 = length l) by (rewrite <- (Permutation_length P), seq_length; reflexivity).
    assert (Hn : NoDup l0) by (eapply Permutation_NoDup; [exact P|apply seq_NoDup]). split; [|split].
    + rewrite <- (firstn_skipn (Z.to_nat k) l0) in Hn. clear - Hn. induction (firstn (Z.to_nat k) l0) as [|x a IH]; [constructor|].
      cbn in Hn. inversion_clear Hn. constructor; [|apply IH; assumption]. intros Hi. apply H. apply in_or_app. left. assumption.
    + intros i Hi. assert (In i l0) by (rewrite <- (firstn_skipn (Z.to_nat k) l0); apply in_or_app; left; assumption).
      eapply Permutation_in in H; [|symmetry; exact P]. apply in_seq in H. lia.
    + rewrite firstn_length. lia.
  - unfold nlargest. rewrite E, firstn_map. reflexivity.
Qed.

(** ** s *)

Lemma qmin2_spec : forall a b, qmin2 a b <= a /\ qmin2 a b <= b /\ (qmin2 a b = a \/ qmin2 a b = b).
Proof.
  intros a b. unfold qmin2. destruct (Qle_bool a b) eqn:E.
  - apply Qle_bool_iff in E. split; [lra|]. split; [exact E|auto].
  - assert (~ a <= b) by (rewrite <- Qle_bool_iff, E; discriminate). split; [lra|]. split; [lra|auto].
Qed.

Lemma fold_min : forall r a, let z := fold_left qmin2 r a in z <= a /\ (forall x, In x r -> z <= x) /\ (z = a \/ In z r).
Proof.
  induction r as [|b r IH]; intros a; cbn [fold_left]; cbv zeta.
  - split; [lra|]. split; [intros ? []|auto].
  - destruct (IH (qmin2 a b)) as (A & B & C). destruct (qmin2_spec a b) as (D1 & D2 & D3). split; [lra|]. split.
    + intros x [<-|Hx]; [lra|auto].
    + destruct C as [C|C]; [|right; right; exact C]. rewrite C. destruct D3 as [->| ->]; [auto|right; left; reflexivity].
Qed.

Section Zero.
  Variables (ts : taskset) (m : nat) (L : Q).
  Hypothesis Hts : Forall srt_task ts.
  Hypothesis Hne : ts <> [].
  Hypothesis Hm : (1 <= m)%nat.
  Hypothesis HU : ts_utilization ts None <= inject_Z (Z.of_nat m).
  Let mz := Z.of_nat m.
  Let mq := inject_Z mz.
  Let s := gs_val L ts mz.
  Let K := Z.to_nat (Qceiling (ts_utilization ts None) - 1).
  Let C (t : task) := inject_Z (t_cost t).
  Let u := utilization.
  Let cm (t : task) := zdivq (t_cost t) mz.
  Definition pp_of (t : task) : Q :=
    qmin2 (L * inject_Z (t_deadline t) - gs_val L ts (Z.of_nat m) - zdivq ((Z.of_nat m - 1) * t_cost t) (Z.of_nat m)) (inject_Z (t_period t)).

  Lemma z_mq : 1 <= mq.
  Proof. unfold mq, mz. change 1 with (inject_Z 1). rewrite <- Zle_Qle. lia. Qed.

  Lemma z_point : forall t, rel_point L mz t == L * inject_Z (t_deadline t) - C t + cm t.
  Proof.
    intros t. unfold rel_point, cm, zdivq. rewrite inject_Z_mult. unfold C. pose proof z_mq as H. fold mq.
    replace (inject_Z (mz - 1)) with (inject_Z (mz + -1)) by (f_equal; lia). rewrite inject_Z_plus. fold mq. change (inject_Z (-1)) with (-(1)). field. lra.
  Qed.

  Lemma z_min : (forall t, In t ts -> s <= rel_point L mz t) /\ exists t, In t ts /\ s = rel_point L mz t.
  Proof.
    unfold s, gs_val. destruct ts as [|t0 r] eqn:E; [congruence|]. cbn [map].
    destruct (fold_min (map (rel_point L mz) r) (rel_point L mz t0)) as (A & B & D). split.
    - intros t [<-|Ht]; [exact A|]. apply B, in_map, Ht.
    - destruct D as [D|D]; [exists t0; split; [left; reflexivity|exact D]|].
      apply in_map_iff in D. destruct D as (t & Et & Ht). exists t. split; [right; exact Ht|symmetry; exact Et].
  Qed.

  Lemma z_task : forall t, In t ts -> 0 <= C t /\ 1 <= inject_Z (t_period t) /\ u t * inject_Z (t_period t) == C t /\ 0 <= u t /\ u t <= 1 /\
    0 <= cm t /\ cm t * mq == C t.
  Proof.
    intros t Ht. rewrite Forall_forall in Hts. specialize (Hts t Ht). destruct Hts as [[H1 H2] H3].
    rewrite Zle_Qle in H1, H2, H3. change (inject_Z 1) with 1 in H3. change (inject_Z 0) with 0 in H1. fold (C t) in H1, H2.
    assert (E : u t * inject_Z (t_period t) == C t) by (unfold u, utilization, zdivq, C; field; lra).
    assert (E2 : cm t * mq == C t) by (pose proof z_mq; unfold cm, zdivq, C; fold mq; field; lra).
    pose proof z_mq as Hq.
    split; [exact H1|]. split; [exact H3|]. split; [exact E|].
    split; [destruct (Qlt_le_dec (u t) 0); [nra|assumption]|].
    split; [destruct (Qlt_le_dec 1 (u t)); [nra|assumption]|].
    split; [destruct (Qlt_le_dec (cm t) 0); [nra|assumption]|exact E2].
  Qed.

  (** the priority points *)
  Lemma z_pp : forall t, In t ts -> let raw := rel_point L mz t - s in
    0 <= raw /\ 0 <= pp_of t /\ pp_of t <= inject_Z (t_period t) /\ pp_of t <= raw /\ (pp_of t == raw \/ pp_of t == inject_Z (t_period t)).
  Proof.
    intros t Ht raw. assert (R : 0 <= raw) by (destruct z_min as (A & _); specialize (A t Ht); unfold raw; lra).
    destruct (z_task t Ht) as (_ & HT & _). split; [exact R|].
    assert (E : L * inject_Z (t_deadline t) - gs_val L ts (Z.of_nat m) - zdivq ((Z.of_nat m - 1) * t_cost t) (Z.of_nat m) == raw)
      by (unfold raw, rel_point, s, mz; ring).
    unfold pp_of. destruct (qmin2_spec (L * inject_Z (t_deadline t) - gs_val L ts (Z.of_nat m) - zdivq ((Z.of_nat m - 1) * t_cost t) (Z.of_nat m)) (inject_Z (t_period t))) as (A & B & D).
    split; [destruct D as [->| ->]; lra|]. split; [exact B|]. split; [lra|]. destruct D as [->| ->]; [left; exact E|right; reflexivity].
  Qed.

  Lemma z_S : forall t, In t ts -> Si_val t L ts mz == C t - u t * pp_of t /\ 0 <= Si_val t L ts mz.
  Proof.
    intros t Ht. destruct (z_pp t Ht) as (P1 & P2 & P3 & P4 & P5). destruct (z_task t Ht) as (T1 & T2 & T3 & T4 & T5 & _ & _).
    unfold Si_val. cbv zeta. fold s.
    assert (E : inject_Z (t_cost t) - zdivq (t_cost t) (t_period t) *
       (L * inject_Z (t_deadline t) - zdivq ((mz - 1) * t_cost t) mz - s) == C t - u t * (rel_point L mz t - s)).
    { unfold rel_point, u, utilization, C. ring. }
    destruct (qltb _ 0) eqn:Eq.
    - apply qltb_iff in Eq. rewrite E in Eq. split; [|lra].
      destruct P5 as [P5|P5]; rewrite P5; [|lra]. exfalso. nra.
    - apply qltb_false in Eq. rewrite E in Eq. rewrite E. split; [|exact Eq].
      destruct P5 as [P5|P5]; [rewrite P5; reflexivity|]. rewrite P5 in *.
      assert (u t * (rel_point L mz t - s) >= u t * inject_Z (t_period t)) by nra. lra.
  Qed.

  Lemma z_G : forall t, In t ts -> Gi_val t L ts mz == u t * (s - cm t + pp_of t).
  Proof.
    intros t Ht. destruct (z_S t Ht) as (E & _). unfold Gi_val. fold s. rewrite E. unfold cm, u, utilization, C. ring.
  Qed.

  Lemma z_K : (Z.of_nat K + 1 <= Z.of_nat m)%Z /\ (K <= length ts)%nat.
  Proof.
    assert (Hl : length (map (fun _ : task => 0%Z) ts) = length ts) by apply map_length.
    destruct (s_K ts (map (fun _ => 0%Z) ts) m Hts Hl Hm HU) as (A & B & _). split; [exact A|exact B].
  Qed.

  Hypothesis Hz : func_val L ts mz == 0.

  Lemma z_in : forall i, (i < length ts)%nat -> In (nth i ts dtask) ts.
  Proof. intros i Hi. apply nth_In, Hi. Qed.

  Lemma z_Gnth : forall i, (i < length ts)%nat -> nth i (map (fun t => Gi_val t L ts mz) ts) 0 == u (nth i ts dtask) * (s - cm (nth i ts dtask) + pp_of (nth i ts dtask)).
  Proof.
    intros i Hi. rewrite (nth_indep _ 0 (Gi_val dtask L ts mz)) by (rewrite map_length; exact Hi).
    rewrite (map_nth (fun t => Gi_val t L ts mz)). apply z_G, z_in, Hi.
  Qed.

  Lemma z_fun : S_val L ts mz == qsum (map (fun t => C t - u t * pp_of t) ts).
  Proof. unfold S_val. apply qs_ext. intros t Ht. apply z_S, Ht. Qed.

  Lemma z_top : forall A, index_set (length ts) K A ->
    qsum (map (fun t => C t - u t * pp_of t) ts) +
    qsum (map (fun i => u (nth i ts dtask) * (s - cm (nth i ts dtask) + pp_of (nth i ts dtask))) A) <= mq * s.
  Proof.
    intros A HA. pose proof HA as (A1 & A2 & A3).
    pose proof (largest_sum (map (fun t => Gi_val t L ts mz) ts) (Qceiling (ts_utilization ts None) - 1) A) as H.
    rewrite map_length in H. specialize (H HA).
    rewrite (qs_ext _ _ (fun i => u (nth i ts dtask) * (s - cm (nth i ts dtask) + pp_of (nth i ts dtask)))) in H by (intros i Hi; apply z_Gnth, A2, Hi).
    unfold func_val, G_val in Hz. fold s mq in Hz. rewrite z_fun in Hz. lra.
  Qed.

  Lemma z_tight : exists A, index_set (length ts) K A /\
    qsum (map (fun t => C t - u t * pp_of t) ts) +
    qsum (map (fun i => u (nth i ts dtask) * (s - cm (nth i ts dtask) + pp_of (nth i ts dtask))) A) == mq * s.
  Proof.
    destruct z_K as (_ & HK).
    destruct (largest_witness (map (fun t => Gi_val t L ts mz) ts) (Qceiling (ts_utilization ts None) - 1)) as (A & HA & E).
    { rewrite map_length. exact HK. }
    rewrite map_length in HA. exists A. split; [exact HA|]. destruct HA as (A1 & A2 & A3).
    rewrite (qs_ext _ (fun i => nth i (map (fun t => Gi_val t L ts mz) ts) 0) (fun i => u (nth i ts dtask) * (s - cm (nth i ts dtask) + pp_of (nth i ts dtask)))) in E by (intros i Hi; apply z_Gnth, A2, Hi).
    unfold func_val, G_val in Hz. fold s mq in Hz. rewrite z_fun in Hz. lra.
  Qed.

  Lemma z_s : 0 <= s.
  Proof.
    destruct (Qlt_le_dec s 0) as [Hs|]; [exfalso|assumption]. destruct z_K as (K1 & K2).
    assert (HA : index_set (length ts) K (seq 0 K)).
    { split; [apply seq_NoDup|]. split; [intros i Hi; apply in_seq in Hi; lia|apply seq_length]. }
    pose proof (z_top _ HA) as H.
    assert (E1 : qsum (map (fun t => C t - u t * pp_of t) ts) == qsum (map (fun i => C (nth i ts dtask) - u (nth i ts dtask) * pp_of (nth i ts dtask)) (seq 0 (length ts)))).
    { rewrite (map_index _ _ _ dtask). reflexivity. }
    assert (N : forall i, (i < length ts)%nat -> 0 <= C (nth i ts dtask) - u (nth i ts dtask) * pp_of (nth i ts dtask)).
    { intros i Hi. destruct (z_S _ (z_in i Hi)) as (E & P). lra. }
    assert (E2 : qsum (map (fun i => C (nth i ts dtask) - u (nth i ts dtask) * pp_of (nth i ts dtask)) (seq 0 K)) <=
      qsum (map (fun i => C (nth i ts dtask) - u (nth i ts dtask) * pp_of (nth i ts dtask)) (seq 0 (length ts)))).
    { apply qs_incl; [apply seq_NoDup| |].
      - intros i Hi. apply in_seq in Hi. apply in_seq. lia.
      - intros i Hi. apply in_seq in Hi. apply N. lia. }
    assert (E3 : qsum (map (fun i => s) (seq 0 K)) <=
      qsum (map (fun i => (C (nth i ts dtask) - u (nth i ts dtask) * pp_of (nth i ts dtask)) +
        u (nth i ts dtask) * (s - cm (nth i ts dtask) + pp_of (nth i ts dtask))) (seq 0 K))).
    { apply qs_le. intros i Hi. apply in_seq in Hi. destruct (z_task _ (z_in i ltac:(lia))) as (T1 & T2 & T3 & T4 & T5 & T6 & T7).
      pose proof z_mq as Hq. set (t := nth i ts dtask) in *. assert (cm t <= C t) by nra. assert (u t * cm t <= C t) by nra. assert (s <= u t * s) by nra. nra. }
    rewrite qs_add, qs_const, seq_length in E3. rewrite E1 in H.
    assert (inject_Z (Z.of_nat K) + 1 <= mq).
    { unfold mq, mz. change 1 with (inject_Z 1). rewrite <- inject_Z_plus, <- Zle_Qle. exact K1. }
    nra.
  Qed.
End Zero.
