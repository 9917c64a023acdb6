(** A compliant s gives safe response-time bounds: the link between the model of
    gel_pl.py and the schedules of SpecTardiness. *)
From Coq Require Import ZArith QArith Qround Lqa List Bool Lia Permutation.
From Verif Require Import Base SpecUni SpecQPA SpecGlobal SpecTardiness ModelTasks ProofTasks ModelTardiness
  ProofTardiness ProofTardinessExact ProofGELCost.
Import ListNotations.
Open Scope Q_scope.

Definition dtask : task := Task 0 1 1.

Definition srt_task (t : task) : Prop := (0 <= t_cost t <= t_period t /\ 1 <= t_period t)%Z.

Definition prod_periods (ts : taskset) : Z := fold_right (fun t p => t_period t * p)%Z 1%Z ts.

Lemma prod_periods_pos : forall ts, Forall srt_task ts -> (0 < prod_periods ts)%Z.
Proof. induction 1 as [|t ts [_ H] _ IH]; cbn; [lia|]. fold (prod_periods ts). nia. Qed.

Lemma prod_periods_div : forall ts t, In t ts -> (t_period t | prod_periods ts)%Z.
Proof.
  intros ts t H. induction ts as [|x ts IH]; [destruct H|]. cbn. fold (prod_periods ts). destruct H as [->|H].
  - apply Z.divide_factor_l.
  - apply Z.divide_mul_r. apply IH. assumption.
Qed.

Lemma map_index : forall A B (f : A -> B) d l, map f l = map (fun i => f (nth i l d)) (seq 0 (length l)).
Proof.
  induction l as [|x l IH]; [reflexivity|]. cbn [length seq map nth]. f_equal. rewrite <- seq_shift, map_map. exact IH.
Qed.

Lemma sumf_seq : forall f n, inject_Z (sumf f n) == qsum (map (fun i => inject_Z (f i)) (seq 0 n)).
Proof.
  intros f n. induction n as [|n IH]; [reflexivity|]. cbn [sumf]. rewrite seq_S, qs_app, inject_Z_plus, IH. cbn [map].
  rewrite qs_cons. change (qsum []) with 0. cbn [Nat.add]. lra.
Qed.

Lemma zsum_inject : forall A (f : A -> Z) l, inject_Z (zsum (map f l)) == qsum (map (fun i => inject_Z (f i)) l).
Proof.
  induction l as [|x l IH]; [reflexivity|]. cbn [map]. rewrite qs_cons, <- IH. change (zsum (f x :: map f l)) with (f x + zsum (map f l))%Z. rewrite inject_Z_plus. reflexivity.
Qed.

Lemma qs_ext : forall A (f g : A -> Q) l, (forall x, In x l -> f x == g x) -> qsum (map f l) == qsum (map g l).
Proof. intros A f g l H. apply Qle_antisym; apply qs_le; intros x Hx; rewrite (H x Hx); apply Qle_refl. Qed.

(** Any small index set can be extended. *)
Lemma extend_set : forall n K A, NoDup A -> (forall i, In i A -> (i < n)%nat) -> (length A <= K)%nat -> (K <= n)%nat ->
  exists B, index_set n K B /\ incl A B.
Proof.
  intros n K A H1 H2 H3 H4. set (R := filter (fun i => negb (existsb (Nat.eqb i) A)) (seq 0 n)).
  pose proof (index_complement n A H1 H2) as P. fold R in P.
  pose proof (Permutation_length P) as PL. rewrite app_length, seq_length in PL.
  assert (ND : NoDup (A ++ R)) by (eapply Permutation_NoDup; [symmetry; exact P|apply seq_NoDup]).
  exists (A ++ firstn (K - length A) R). split; [split; [|split]|].
  - rewrite <- (firstn_skipn (K - length A) R), app_assoc in ND. clear - ND.
    induction (A ++ firstn (K - length A) R) as [|x a IH]; [constructor|]. cbn in ND. inversion_clear ND as [|? ? X1 X2].
    constructor; [|apply IH; assumption]. intros Hi. apply X1. apply in_or_app. left. assumption.
  - intros i Hi. assert (In i (A ++ R)) as Hr.
    { apply in_app_or in Hi. apply in_or_app. destruct Hi as [Hi|Hi]; [left; assumption|right].
      rewrite <- (firstn_skipn (K - length A) R). apply in_or_app. left. assumption. }
    eapply Permutation_in in Hr; [|exact P]. apply in_seq in Hr. lia.
  - rewrite app_length, firstn_length. lia.
  - intros i Hi. apply in_or_app. left. assumption.
Qed.


Section Safe.
  Variables (ts : taskset) (apps : list Z) (m : nat).
  Hypothesis Hts : Forall srt_task ts.
  Hypothesis Hlen : length apps = length ts.
  Hypothesis Happs : Forall (fun a => 0 <= a)%Z apps.
  Hypothesis Hm : (1 <= m)%nat.
  Hypothesis HU : ts_utilization ts None <= inject_Z (Z.of_nat m).

  Let n := length ts.
  Let mq := inject_Z (Z.of_nat m).
  Let tk i := nth i ts dtask.
  Let C i := t_cost (tk i).
  Let T i := t_period (tk i).
  Let Y i := nth i apps 0%Z.
  Let u i := utilization (tk i).
  Let lines := gel_lines (Z.of_nat m) ts apps.
  Let Sf i := S_value (tk i) (Y i).
  Let uc := Qceiling (ts_utilization ts None).
  Let K := Z.to_nat (uc - 1).
  Let P := prod_periods ts.
  Let p i := (P / T i * C i)%Z.

  Lemma s_task : forall i, (i < n)%nat -> (0 <= C i <= T i /\ 1 <= T i)%Z.
  Proof. intros i Hi. rewrite Forall_forall in Hts. apply (Hts (tk i)). apply nth_In. exact Hi. Qed.

  Lemma s_app : forall i, (i < n)%nat -> (0 <= Y i)%Z.
  Proof. intros i Hi. rewrite Forall_forall in Happs. apply Happs. apply nth_In. rewrite Hlen. exact Hi. Qed.

  Lemma s_P : (0 < P)%Z.
  Proof. apply prod_periods_pos. exact Hts. Qed.

  Lemma s_p : forall i, (i < n)%nat -> (p i * T i = P * C i)%Z.
  Proof.
    intros i Hi. destruct (prod_periods_div ts (tk i) ltac:(apply nth_In; exact Hi)) as [z E]. fold P in E. fold (T i) in E.
    unfold p. pose proof (s_task i Hi). rewrite E, Z.div_mul by lia. ring.
  Qed.

  Lemma s_u : forall i, (i < n)%nat -> u i * inject_Z (T i) == inject_Z (C i).
  Proof.
    intros i Hi. unfold u, utilization, zdivq. fold (C i) (T i). pose proof (s_task i Hi) as [_ H]. rewrite Zle_Qle in H.
    change (inject_Z 1) with 1 in H. field. lra.
  Qed.

  Lemma s_u_range : forall i, (i < n)%nat -> 0 <= u i <= 1.
  Proof.
    intros i Hi. pose proof (s_u i Hi) as E. pose proof (s_task i Hi) as [[H1 H2] H3]. rewrite Zle_Qle in H1, H2, H3.
    change (inject_Z 1) with 1 in H3. change (inject_Z 0) with 0 in H1. split; [|].
    - destruct (Qlt_le_dec (u i) 0); [nra|assumption].
    - destruct (Qlt_le_dec 1 (u i)); [nra|assumption].
  Qed.

  Lemma s_pu : forall i, (i < n)%nat -> inject_Z (p i) == inject_Z P * u i.
  Proof.
    intros i Hi. pose proof (s_u i Hi) as E. pose proof (s_p i Hi) as Ep. pose proof (s_task i Hi) as [_ H].
    assert (E2 : inject_Z (p i) * inject_Z (T i) == inject_Z P * inject_Z (C i)).
    { rewrite <- !inject_Z_mult, Ep. reflexivity. }
    rewrite <- E in E2. rewrite Zle_Qle in H. change (inject_Z 1) with 1 in H.
    apply Qmult_inj_r with (inject_Z (T i)); [lra|]. rewrite E2. ring.
  Qed.

  Lemma s_lines_len : length lines = n.
  Proof. unfold lines, gel_lines. rewrite map_length, combine_length, Hlen. apply Nat.min_id. Qed.

  Lemma s_nth : forall i, (i < n)%nat -> nth i (combine ts apps) (dtask, 0%Z) = (tk i, Y i).
  Proof. intros i Hi. apply combine_nth. symmetry. exact Hlen. Qed.

  Lemma s_line : forall i, (i < n)%nat -> line lines i = (Y_int (Z.of_nat m) (tk i) (Y i), u i).
  Proof.
    intros i Hi. unfold line, lines, gel_lines. set (f := fun q : task * Z => (Y_int (Z.of_nat m) (fst q) (snd q), utilization (fst q))).
    rewrite (nth_indep (map f (combine ts apps)) (0, 0) (f (dtask, 0%Z))).
    - rewrite map_nth, s_nth by exact Hi. reflexivity.
    - rewrite map_length, combine_length, Hlen, Nat.min_id. exact Hi.
  Qed.

  (** min(Y, T) as a rational *)
  Let MY i := inject_Z (Z.min (Y i) (T i)).

  Lemma s_S : forall i, (i < n)%nat -> Sf i == inject_Z (C i) - u i * MY i.
  Proof.
    intros i Hi. unfold Sf, S_value, qmax0, MY. fold (C i) (T i). pose proof (s_u i Hi) as E. pose proof (s_task i Hi) as [[H1 H2] H3].
    pose proof (s_app i Hi) as H4.
    set (q := inject_Z (C i) * (1 - zdivq (Y i) (T i))).
    assert (Eq : q == inject_Z (C i) - u i * inject_Z (Y i)).
    { unfold q, u, utilization, zdivq. fold (C i) (T i). rewrite Zle_Qle in H3. change (inject_Z 1) with 1 in H3. field. lra. }
    pose proof (s_u_range i Hi) as Hu.
    destruct (Z.le_ge_cases (Y i) (T i)) as [L|L].
    - rewrite Z.min_l by exact L. destruct (Qle_bool q 0) eqn:Eb; [|exact Eq].
      apply Qle_bool_iff in Eb. rewrite Zle_Qle in L. nra.
    - rewrite Z.min_r by exact L. destruct (Qle_bool q 0) eqn:Eb; [lra|].
      assert (0 < q) by (destruct (Qlt_le_dec 0 q) as [X|X]; [exact X|apply Qle_bool_iff in X; congruence]).
      rewrite Zle_Qle in L. nra.
  Qed.

  Lemma s_S_nonneg : forall i, (i < n)%nat -> 0 <= Sf i.
  Proof.
    intros i Hi. unfold Sf, S_value, qmax0. destruct (Qle_bool _ 0) eqn:Eb; [lra|]. apply Qlt_le_weak.
    destruct (Qlt_le_dec 0 (inject_Z (t_cost (tk i)) * (1 - zdivq (Y i) (t_period (tk i))))) as [X|X]; [exact X|apply Qle_bool_iff in X; congruence].
  Qed.

  Lemma s_mq : 1 <= mq.
  Proof. unfold mq. change 1 with (inject_Z 1). rewrite <- Zle_Qle. lia. Qed.

  Let cm i := zdivq (C i) (Z.of_nat m).

  Lemma s_cm : forall i, cm i * mq == inject_Z (C i).
  Proof. intros i. unfold cm, zdivq. fold mq. pose proof s_mq. field. lra. Qed.

  Lemma s_icept : forall i, (i < n)%nat -> icept lines i == u i * MY i - u i * cm i.
  Proof.
    intros i Hi. unfold icept. rewrite s_line by exact Hi. cbn [fst]. unfold Y_int. fold (C i). fold (cm i). fold (u i). fold (Sf i).
    rewrite (s_S i Hi). ring.
  Qed.

  Lemma s_slope : forall i, (i < n)%nat -> slope lines i = u i.
  Proof. intros i Hi. unfold slope. rewrite s_line by exact Hi. reflexivity. Qed.

  Lemma s_val : forall s i, (i < n)%nat -> val lines s i == u i * (s - cm i + MY i).
  Proof. intros s i Hi. unfold val. rewrite s_slope, s_icept by exact Hi. ring. Qed.

  Lemma s_sumS : qsum (gel_S ts apps) == qsum (map Sf (seq 0 n)).
  Proof.
    unfold gel_S. rewrite (map_index _ _ _ (dtask, 0%Z)), combine_length, Hlen, Nat.min_id.
    apply qs_ext. intros i Hi. apply in_seq in Hi. rewrite s_nth by (unfold n; lia). reflexivity.
  Qed.

  Lemma s_util : ts_utilization ts None == qsum (map u (seq 0 n)).
  Proof. unfold ts_utilization. rewrite (map_index _ _ utilization dtask). reflexivity. Qed.

  Lemma s_util_nonneg : 0 <= ts_utilization ts None.
  Proof. rewrite s_util. apply qs_nonneg. intros i Hi. apply in_seq in Hi. apply s_u_range. unfold n in *. lia. Qed.

  Lemma s_uc : (0 <= uc <= Z.of_nat m)%Z.
  Proof.
    unfold uc. split.
    - change 0%Z with (Qceiling 0). apply Qceiling_resp_le. apply s_util_nonneg.
    - rewrite <- (Qceiling_Z (Z.of_nat m)). apply Qceiling_resp_le. exact HU.
  Qed.

  Lemma s_K : (Z.of_nat K + 1 <= Z.of_nat m)%Z /\ (K <= n)%nat /\ ts_utilization ts None <= inject_Z (Z.of_nat (Datatypes.S K)).
  Proof.
    pose proof s_uc as H. split; [unfold K; lia|]. split.
    - assert (ts_utilization ts None <= inject_Z (Z.of_nat n)) as G.
      { rewrite s_util. eapply Qle_trans; [apply (qs_le _ u (fun _ => 1))|].
        - intros i Hi. apply in_seq in Hi. apply s_u_range. unfold n in *. lia.
        - rewrite qs_const, seq_length. lra. }
      pose proof (Qceiling_resp_le _ _ G) as G2. rewrite Qceiling_Z in G2. fold uc in G2. unfold K. lia.
    - eapply Qle_trans; [apply Qle_ceiling|]. fold uc. rewrite <- Zle_Qle. unfold K. lia.
  Qed.

  Lemma s_slopes : forall i, (i < length lines)%nat -> 0 <= slope lines i <= 1.
  Proof. intros i Hi. rewrite s_lines_len in Hi. rewrite s_slope by exact Hi. apply s_u_range. exact Hi. Qed.

  (** value of a line plus S of its task *)
  Lemma s_w : forall s i, (i < n)%nat -> 0 <= s -> u i * s + inject_Z (C i) - u i * cm i == val lines s i + Sf i /\ 0 <= val lines s i + Sf i.
  Proof.
    intros s i Hi Hs. assert (E : u i * s + inject_Z (C i) - u i * cm i == val lines s i + Sf i) by (rewrite s_val, s_S by exact Hi; ring).
    split; [exact E|]. rewrite <- E. pose proof (s_u_range i Hi). pose proof (s_cm i) as Ec. pose proof s_mq.
    pose proof (s_task i Hi) as [[H1 _] _]. rewrite Zle_Qle in H1. change (inject_Z 0) with 0 in H1.
    assert (0 <= cm i) by (destruct (Qlt_le_dec (cm i) 0); [nra|assumption]). nra.
  Qed.

  Lemma s_sum_w : forall s A B, 0 <= s -> index_set n K B -> NoDup A -> incl A B ->
    qsum (map (fun i => val lines s i + Sf i) A) <= qsum (gel_S ts apps) + qsum (map (val lines s) B).
  Proof.
    intros s A B Hs [B1 [B2 B3]] HA Hi. rewrite s_sumS.
    eapply Qle_trans; [apply (qs_incl _ _ A B HA Hi)|].
    - intros i HiB. apply s_w; [apply B2; exact HiB|exact Hs].
    - rewrite qs_add. enough (qsum (map Sf B) <= qsum (map Sf (seq 0 n))) by lra. apply qs_incl; [exact B1| |].
      + intros i HiB. apply in_seq. specialize (B2 i HiB). lia.
      + intros i Hin. apply in_seq in Hin. apply s_S_nonneg. lia.
  Qed.

  Lemma s_start : forall A, index_set (length lines) K A -> 0 <= qsum (gel_S ts apps) + qsum (map (icept lines) A).
  Proof.
    intros A HA. rewrite s_lines_len in HA. pose proof (s_sum_w 0 [] A (Qle_refl 0) HA (NoDup_nil _) ltac:(intros x [])) as H.
    cbn [map] in H. change (qsum []) with 0 in H.
    assert (qsum (map (val lines 0) A) == qsum (map (icept lines) A)) by (apply qs_ext; intros i _; unfold val; ring). lra.
  Qed.

  Let X s i := Qfloor (s - cm i).

  Lemma s_x_nonneg : forall s i, compliant mq K (qsum (gel_S ts apps)) lines s -> (1 <= K)%nat -> (i < n)%nat -> 0 <= s - cm i.
  Proof.
    intros s i [Hs Hc] HK Hi. pose proof s_K as [HKm [HKn _]].
    destruct (extend_set n K [i]) as [B [HB Hin]].
    - constructor; [intros []|constructor].
    - intros j [<-|[]]. exact Hi.
    - cbn. lia.
    - exact HKn.
    - pose proof (s_sum_w s [i] B Hs HB ltac:(constructor; [intros []|constructor]) Hin) as H.
      rewrite s_lines_len in Hc. specialize (Hc B HB). cbn [map] in H. rewrite qs_cons in H. change (qsum []) with 0 in H.
      destruct (s_w s i Hi Hs) as [E _]. pose proof (s_u_range i Hi). pose proof (s_cm i) as Ec.
      assert (2 <= mq) by (unfold mq; change 2 with (inject_Z 2); rewrite <- Zle_Qle; lia).
      destruct (Qlt_le_dec (s - cm i) 0); [|assumption]. nra.
  Qed.

  Lemma compliant_responds : forall s jobs sc, compliant mq K (qsum (gel_S ts apps)) lines s ->
    (forall i, (i < n)%nat -> forall k, (Z.of_nat (arr jobs i k) + T i <= Z.of_nat (arr jobs i (Datatypes.S k)))%Z /\
      rel jobs i k = arr jobs i k /\ (Z.of_nat (cst jobs i k) <= C i)%Z) ->
    gvalid n m jobs sc ->
    (forall t j, (fst j < n)%nat -> gready jobs sc j t -> ~ In j (sc t) ->
      length (sc t) = m /\ forall j', In j' (sc t) ->
        (Z.of_nat (arr jobs (fst j') (snd j')) + Y (fst j') <= Z.of_nat (arr jobs (fst j) (snd j)) + Y (fst j))%Z) ->
    forall j, (fst j < n)%nat -> responds jobs sc j (Y (fst j) + X s (fst j) + C (fst j))%Z.
  Proof.
    intros s jobs sc Hc Hleg Hv Hpol j Hj. pose proof s_K as [HKm [HKn HKu]]. pose proof s_P as HP.
    assert (HPq : 0 < inject_Z P) by (change 0 with (inject_Z 0); rewrite <- Zlt_Qlt; exact HP).
    assert (HXx : forall i, inject_Z (X s i) <= s - cm i) by (intros i; apply Qfloor_le).
    assert (HXl : forall i, s - cm i < inject_Z (X s i) + 1).
    { intros i. pose proof (Qlt_floor (s - cm i)) as H. fold (X s i) in H. rewrite inject_Z_plus in H. exact H. }
    assert (HXn : (1 <= K)%nat -> forall i, (i < n)%nat -> (0 <= X s i)%Z).
    { intros HK i Hi. pose proof (s_x_nonneg s i Hc HK Hi). specialize (HXl i). change 1 with (inject_Z 1) in HXl.
      rewrite <- inject_Z_plus in HXl. assert (inject_Z 0 < inject_Z (X s i + 1)) as G by (change (inject_Z 0) with 0; lra).
      rewrite <- Zlt_Qlt in G. lia. }
    apply (gel_bound n m K jobs sc C T Y (X s) p P HP); try assumption.
    - intros i Hi. pose proof (s_task i Hi). pose proof (s_app i Hi). pose proof (s_p i Hi). repeat split; lia.
    - rewrite Zle_Qle, sumf_seq, inject_Z_mult.
      rewrite (qs_ext _ _ (fun i => u i * inject_Z P)).
      + rewrite qs_mul, <- s_util. nra.
      + intros i Hi. apply in_seq in Hi. rewrite s_pu by lia. ring.
    - lia.
    - intros i A Hi HA1 HA2 HA3. destruct (extend_set n K A HA1 HA2 HA3 HKn) as [B [HB HAB]].
      assert (HKA : (K = 0)%nat -> A = []) by (intros E; destruct A; [reflexivity|cbn in HA3; lia]).
      destruct Hc as [Hs Hc']. rewrite s_lines_len in Hc'. specialize (Hc' B HB). destruct HB as [B1 [B2 B3]].
      rewrite Zlt_Qlt, inject_Z_plus, zsum_inject, sumf_seq, inject_Z_mult, inject_Z_plus, inject_Z_mult, inject_Z_plus. fold mq.
      change (inject_Z 1) with 1.
      assert (G1 : qsum (map (fun j0 => inject_Z (p j0 * (Z.min (Y j0) (T j0) + X s j0))) A) <= inject_Z P * qsum (map (val lines s) B)).
      { eapply Qle_trans; [apply (qs_incl _ _ A B HA1 HAB)|].
        - intros j0 Hj0. change 0 with (inject_Z 0). rewrite <- Zle_Qle. specialize (B2 j0 Hj0).
          assert (1 <= K)%nat as HK1 by (destruct B; [destruct Hj0|cbn in B3; lia]).
          specialize (HXn HK1 j0 B2). pose proof (s_app j0 B2). pose proof (s_task j0 B2). pose proof (s_p j0 B2).
          assert (0 <= p j0)%Z by nia. apply Z.mul_nonneg_nonneg; lia.
        - rewrite (Qmult_comm (inject_Z P)), <- qs_mul. apply qs_le. intros j0 Hj0. specialize (B2 j0 Hj0).
          rewrite inject_Z_mult, inject_Z_plus, s_pu, s_val by exact B2. fold (MY j0). specialize (HXx j0). pose proof (s_u_range j0 B2).
          assert (0 <= u j0 * inject_Z P) by nra. nra. }
      assert (G2 : qsum (map (fun j0 => inject_Z (P * C j0 - p j0 * Z.min (Y j0) (T j0))) (seq 0 n)) == inject_Z P * qsum (gel_S ts apps)).
      { rewrite s_sumS, (Qmult_comm (inject_Z P)), <- qs_mul. apply qs_ext. intros j0 Hj0. apply in_seq in Hj0.
        unfold Z.sub. rewrite inject_Z_plus, inject_Z_opp, !inject_Z_mult, s_pu, s_S by lia. fold (MY j0). ring. }
      rewrite G2. pose proof (s_cm i) as Ec. specialize (HXl i). pose proof s_mq.
      assert (mq * s < mq * (inject_Z (X s i) + 1) + inject_Z (C i)) by nra. nra.
  Qed.

  (** the bound of the code is no smaller *)
  Lemma bound_ge : forall s i, (Y i + X s i + C i <= gel_task_bound (Z.of_nat m) s (tk i) (Y i))%Z.
  Proof.
    intros s i. unfold gel_task_bound. fold (C i). fold (cm i). rewrite Zle_Qle, !inject_Z_plus.
    eapply Qle_trans; [|apply Qle_ceiling]. pose proof (Qfloor_le (s - cm i)) as H. fold (X s i) in H. lra.
  Qed.

  Lemma n_bound_ge : forall s i, (Y i + X s i + C i <= n_gel_task_bound (Z.of_nat m) s (tk i) (Y i))%Z.
  Proof.
    intros s i. unfold n_gel_task_bound. fold (C i). fold (cm i).
    assert (X s i <= Qceiling (s - cm i))%Z.
    { rewrite Zle_Qle. eapply Qle_trans; [apply Qfloor_le|apply Qle_ceiling]. }
    lia.
  Qed.
End Safe.
