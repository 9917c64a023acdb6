(** The analyses of gel_pl.py and gel_pl.cpp as a whole. *)
From Coq Require Import ZArith QArith Qround Lqa List Bool Lia Permutation.
From Verif Require Import Base SpecUni SpecQPA SpecGlobal SpecTardiness ModelTasks ProofTasks ModelTardiness
  ProofTardiness ProofTardinessExact ProofGELCost ProofTardinessSafe.
Import ListNotations.
Open Scope Q_scope.

Definition cp_of (t : task) : Z * Z := (t_cost t, t_period t).

Definition rt_task (t : task) : Prop := (0 <= t_cost t /\ 1 <= t_period t)%Z.

Lemma bounded_srt : forall m ts, Forall rt_task ts -> has_bounded_tardiness m ts = true ->
  Forall srt_task ts /\ ts_utilization ts None <= inject_Z m.
Proof.
  intros m ts Hw Hb. unfold has_bounded_tardiness in Hb. apply andb_true_iff in Hb. destruct Hb as [H1 H2]. apply Qle_bool_iff in H1.
  split; [|exact H1]. rewrite forallb_forall in H2. rewrite Forall_forall in *. intros t Ht. specialize (Hw t Ht). specialize (H2 t Ht).
  unfold rt_task, srt_task in *. lia.
Qed.

Lemma min_pp_le : forall r a x, In x (a :: r) -> (min_pp a r <= x)%Z.
Proof.
  unfold min_pp. induction r as [|b r IH]; intros a x [<-|H]; cbn [fold_left].
  - lia.
  - destruct H.
  - specialize (IH (Z.min a b) (Z.min a b) (or_introl eq_refl)). lia.
  - destruct H as [<-|H]; [specialize (IH (Z.min a b) (Z.min a b) (or_introl eq_refl)); lia|].
    apply IH. right. exact H.
Qed.

Lemma apps_spec : forall pps apps, analysis_pps pps = Some apps ->
  exists c, apps = map (fun p => p - c)%Z pps /\ Forall (fun a => 0 <= a)%Z apps.
Proof.
  intros pps apps E. unfold analysis_pps in E. destruct pps as [|a r]; [discriminate|]. inversion E as [E']. exists (min_pp a r). split; [reflexivity|].
  change (min_pp a r) with (min_pp a r). rewrite Forall_forall. intros x Hx.
  change ((a - min_pp a r)%Z :: map (fun p => (p - min_pp a r)%Z) r) with (map (fun p => (p - min_pp a r)%Z) (a :: r)) in Hx.
  apply in_map_iff in Hx. destruct Hx as [y [<- Hy]]. pose proof (min_pp_le r a y Hy). lia.
Qed.

Lemma legal_unpack : forall ts s, legal_seq (map (fun cp => Promise (fst cp) (snd cp) 0) (map cp_of ts)) s ->
  forall i, (i < length ts)%nat -> forall k,
    (Z.of_nat (arr s i k) + t_period (nth i ts dtask) <= Z.of_nat (arr s i (Datatypes.S k)))%Z /\
    rel s i k = arr s i k /\ (Z.of_nat (cst s i k) <= t_cost (nth i ts dtask))%Z.
Proof.
  intros ts s Hl i Hi k. specialize (Hl i (Promise (t_cost (nth i ts dtask)) (t_period (nth i ts dtask)) 0)).
  rewrite map_map in Hl. rewrite nth_error_map in Hl. rewrite (nth_error_nth' ts dtask Hi) in Hl. specialize (Hl eq_refl k).
  cbn [pr_cost pr_period pr_jitter] in Hl. repeat split; try lia.
Qed.

Lemma responds_mono : forall s sc j a b, (a <= b)%Z -> responds s sc j a -> responds s sc j b.
Proof. intros s sc j a b H [q [H1 H2]]. exists q. split; [lia|exact H2]. Qed.

(** ** From a compliant s to safe bounds *)
Lemma compliant_safe : forall ts pps apps (m : nat) s (B : task -> Z -> Z),
  Forall srt_task ts -> length pps = length ts -> (1 <= m)%nat -> ts_utilization ts None <= inject_Z (Z.of_nat m) ->
  analysis_pps pps = Some apps ->
  compliant (inject_Z (Z.of_nat m)) (Z.to_nat (Qceiling (ts_utilization ts None) - 1)) (qsum (gel_S ts apps)) (gel_lines (Z.of_nat m) ts apps) s ->
  (forall i, (i < length ts)%nat ->
    (nth i apps 0 + Qfloor (s - zdivq (t_cost (nth i ts dtask)) (Z.of_nat m)) + t_cost (nth i ts dtask) <= B (nth i ts dtask) (nth i apps 0))%Z) ->
  gel_responses (map cp_of ts) pps m (map (fun q => B (fst q) (snd q)) (combine ts apps)).
Proof.
  intros ts pps apps m s B Hts Hlen Hm HU Ha Hc HB jobs sc Hl Hv Hp j b Hj Eb. rewrite map_length in *.
  destruct (apps_spec pps apps Ha) as [c [Ec Hn]].
  assert (Hla : length apps = length ts) by (rewrite Ec, map_length; exact Hlen).
  assert (Enth : forall i, (i < length ts)%nat -> nth i apps 0%Z = (nth i pps 0 - c)%Z).
  { intros i Hi. rewrite Ec. rewrite (nth_indep _ 0%Z ((fun p => p - c) 0)%Z) by (rewrite map_length, Hlen; exact Hi). rewrite (map_nth (fun p => p - c)%Z). reflexivity. }
  assert (Eb' : b = B (nth (fst j) ts dtask) (nth (fst j) apps 0%Z)).
  { rewrite nth_error_map in Eb. rewrite (nth_error_nth' (combine ts apps) (dtask, 0%Z)) in Eb by (rewrite combine_length, Hla, Nat.min_id; exact Hj).
    rewrite combine_nth in Eb by (symmetry; exact Hla). cbn in Eb. congruence. }
  rewrite Eb'. eapply responds_mono; [apply HB; exact Hj|].
  apply (compliant_responds ts apps m Hts Hla Hn Hm HU s jobs sc Hc).
  - apply legal_unpack. exact Hl.
  - exact Hv.
  - intros t j0 Hj0 Hr Hni. destruct (Hp t j0 Hj0 Hr Hni) as [H1 H2]. split; [exact H1|]. intros j' Hj'. specialize (H2 j' Hj').
    unfold prio_point in H2. destruct (Hv t) as [_ [_ Hv3]]. destruct (Hv3 j' Hj') as [Hj'n _].
    rewrite !Enth by assumption. lia.
  - exact Hj.
Qed.

(** ** Both ways to compute s *)
Section Compute.
  Variables (ts : taskset) (apps : list Z) (m : nat).
  Hypothesis Hts : Forall srt_task ts.
  Hypothesis Hlen : length apps = length ts.
  Hypothesis Happs : Forall (fun a => 0 <= a)%Z apps.
  Hypothesis Hm : (1 <= m)%nat.
  Hypothesis HU : ts_utilization ts None <= inject_Z (Z.of_nat m).
  Let uc := Qceiling (ts_utilization ts None).
  Let K := Z.to_nat (uc - 1).
  Let S := qsum (gel_S ts apps).
  Let lines := gel_lines (Z.of_nat m) ts apps.

  Lemma c_K : (K <= length lines)%nat /\ (Z.of_nat K + 1 <= Z.of_nat m)%Z.
  Proof.
    destruct (s_K ts apps m Hts Hlen Hm HU) as [H1 [H2 _]]. split; [|exact H1].
    unfold lines. rewrite (s_lines_len ts apps m Hlen). exact H2.
  Qed.

  Lemma c_slope : forall i, (i < length lines)%nat -> 0 <= slope lines i <= 1.
  Proof. exact (s_slopes ts apps m Hts Hlen). Qed.

  Lemma c_exact : good lines (Z.of_nat m) K S (compute_exact_s (Z.of_nat m) uc S lines).
  Proof.
    destruct c_K as [H1 H2]. apply exact_good; [exact H1|exact H2|intros i Hi; apply c_slope; exact Hi|].
    exact (s_start ts apps m Hts Hlen Happs Hm).
  Qed.

  Lemma c_gel_s : forall fuel rounds s, gel_s fuel (Z.of_nat m) ts apps rounds = Some s -> compliant (inject_Z (Z.of_nat m)) K S lines s.
  Proof.
    intros fuel rounds s E. unfold gel_s in E. destruct rounds.
    - inversion E; subst. apply good_compliant. exact c_exact.
    - destruct c_K as [H1 H2]. destruct (binsearch_spec lines (Z.of_nat m) uc S H1 _ _ _ E) as [G1 G2]. apply M_compliant; assumption.
  Qed.

  Lemma c_total : exists N, forall fuel rounds, (N <= fuel)%nat -> exists s, gel_s fuel (Z.of_nat m) ts apps rounds = Some s.
  Proof.
    destruct c_K as [H1 H2]. destruct (bin_double_total lines (Z.of_nat m) uc S H1 H2 c_slope) as [N HN]. exists N. intros fuel rounds Hf.
    unfold gel_s. destruct rounds; [eexists; reflexivity|]. unfold compute_binsearch_s. destruct (HN fuel Hf) as [[lo hi] E].
    fold uc S lines. rewrite E. eexists; reflexivity.
  Qed.

  Lemma c_smallest : forall s, compliant (inject_Z (Z.of_nat m)) K S lines s -> compute_exact_s (Z.of_nat m) uc S lines <= s.
  Proof.
    intros s H. destruct c_K as [H1 H2]. eapply good_smallest; [exact H2|intros i Hi; apply c_slope; exact Hi|exact c_exact|exact H].
  Qed.

  (** the binary search converges to the exact value *)
  Lemma c_converge : exists c, forall fuel rounds s, gel_s fuel (Z.of_nat m) ts apps (Datatypes.S rounds) = Some s ->
    (s - compute_exact_s (Z.of_nat m) uc S lines) * inject_Z (2 ^ Z.of_nat (Datatypes.S rounds)) <= c.
  Proof.
    destruct c_K as [H1 H2]. set (M := M_value (Z.of_nat m) uc S lines). set (z := compute_exact_s (Z.of_nat m) uc S lines).
    destruct (bin_double_total lines (Z.of_nat m) uc S H1 H2 c_slope) as [N HN]. destruct (HN N (Nat.le_refl N)) as [[lo0 hi0] E0]. exists (hi0 - lo0).
    assert (Huniq : forall f1 f2 a b r1 r2, bin_double f1 M a b = Some r1 -> bin_double f2 M a b = Some r2 -> r1 = r2).
    { induction f1 as [|f1 IH]; intros f2 a b r1 r2 X1 X2; [discriminate|]. destruct f2; [discriminate|]. cbn [bin_double] in X1, X2.
      destruct (qltb 0 (M b)); [eapply IH; eassumption|congruence]. }
    assert (Hlow : forall a, 0 <= a -> (a == 0 \/ 0 <= M a) -> a <= z).
    { intros a Ha [E|HM]; [destruct c_exact as [Hz _]; fold z in Hz; lra|].
      destruct (Qlt_le_dec z a) as [L|L]; [|exact L]. exfalso.
      pose proof c_exact as G. destruct (good_compliant _ _ _ _ _ G) as [Hz Hc]. fold z in Hz, Hc.
      assert (Hzc : compliant (inject_Z (Z.of_nat m)) K S lines z) by (split; assumption).
      pose proof (compliant_M (Z.of_nat m) uc S lines z H1 Hzc) as HMz.
      pose proof (M_decreasing lines (Z.of_nat m) uc S H1 H2 c_slope z a Hz ltac:(lra)) as D. fold M in D, HMz. lra. }
    intros fuel rounds s E. unfold gel_s, compute_binsearch_s in E. fold uc S lines in E. fold M in E.
    destruct (bin_double fuel M 0 1) as [[lo hi]|] eqn:Ed; [|discriminate].
    pose proof (Huniq _ _ _ _ _ _ Ed E0) as Q. inversion Q; subst lo hi.
    destruct (bin_double_spec lines (Z.of_nat m) uc S fuel 0 1 lo0 hi0) as [D1 [D2 [D3 D4]]]; [lra|lra|lra|left; lra|exact Ed|].
    assert (D5 : lo0 == 0 \/ 0 <= M_value (Z.of_nat m) uc S lines lo0) by (destruct D4 as [D4|D4]; [left; exact D4|right; apply Qlt_le_weak; exact D4]).
    pose proof (bisect_spec lines (Z.of_nat m) uc S H1 (Datatypes.S rounds) lo0 hi0 D1 D2 D3 D5) as Bs.
    fold M in Bs. assert (Es : snd (bisect (Datatypes.S rounds) M lo0 hi0) = s) by (inversion E; reflexivity).
    destruct (bisect (Datatypes.S rounds) M lo0 hi0) as [lo' hi']. cbn [snd] in Es. subst hi'.
    destruct Bs as [B1 [B2 [B3 [B4 [B5 B6]]]]]. pose proof (Hlow lo' ltac:(lra) B5) as HL.
    assert (0 < inject_Z (2 ^ Z.of_nat (Datatypes.S rounds))).
    { change 0 with (inject_Z 0). rewrite <- Zlt_Qlt. apply Z.pow_pos_nonneg; lia. }
    rewrite <- B6. nra.
  Qed.

  (** native: strict comparison *)
  Lemma c_native : forall fuel rounds s, n_gel_s fuel (Z.of_nat m) ts apps rounds = Some s -> compliant (inject_Z (Z.of_nat m)) K S lines s.
  Proof.
    destruct c_K as [H1 H2]. set (M := M_value (Z.of_nat m) uc S lines).
    assert (Hlt : forall s, n_M_lt_0 (Z.of_nat m) uc S lines s = true -> M s < 0).
    { intros s E. unfold n_M_lt_0 in E. apply qltb_iff in E. unfold M, M_value. destruct (2 <=? uc)%Z eqn:Eu; [lra|].
      apply Z.leb_gt in Eu. unfold nlargest. replace (Z.to_nat (uc - 1)) with 0%nat by lia. cbn [firstn]. change (qsum []) with 0. lra. }
    intros fuel rounds s E. unfold n_gel_s in E. destruct rounds.
    - inversion E; subst. apply good_compliant. exact c_exact.
    - unfold n_compute_binsearch_s in E. fold uc S lines in E. set (lt0 := n_M_lt_0 (Z.of_nat m) uc S lines) in *.
      destruct (n_bin_double fuel lt0 0 1) as [[lo hi]|] eqn:Ed; [|discriminate].
      assert (D : forall f a b lo' hi', 0 <= a -> a <= b -> n_bin_double f lt0 a b = Some (lo', hi') -> 0 <= lo' /\ lo' <= hi' /\ lt0 hi' = true).
      { induction f as [|f IH]; intros a b lo' hi' X1 X2 X; [discriminate|]. cbn [n_bin_double] in X. destruct (lt0 b) eqn:El.
        - inversion X; subst. repeat split; assumption.
        - eapply IH; [| |exact X]; lra. }
      destruct (D fuel 0 1 lo hi ltac:(lra) ltac:(lra) Ed) as [D1 [D2 D3]].
      assert (Bs : forall r a b, 0 <= a -> a <= b -> lt0 b = true -> 0 <= n_bisect r lt0 a b /\ lt0 (n_bisect r lt0 a b) = true).
      { induction r as [|r IH]; intros a b X1 X2 X3; cbn [n_bisect]; [split; [lra|exact X3]|]. cbv zeta. set (mid := (a + b) / 2).
        assert (Em : mid == (a + b) * (1 # 2)) by (unfold mid; field). destruct (lt0 mid) eqn:El; apply IH; try assumption; lra. }
      destruct (Bs (Datatypes.S rounds) lo hi D1 D2 D3) as [G1 G2]. assert (E' : n_bisect (Datatypes.S rounds) lt0 lo hi = s) by congruence. rewrite E' in *. apply M_compliant; [exact G1|]. apply Hlt in G2. fold M. lra.
  Qed.

  Lemma c_native_total : exists N, forall fuel rounds, (N <= fuel)%nat -> exists s, n_gel_s fuel (Z.of_nat m) ts apps rounds = Some s.
  Proof.
    destruct c_K as [H1 H2]. set (M := M_value (Z.of_nat m) uc S lines). set (lt0 := n_M_lt_0 (Z.of_nat m) uc S lines).
    assert (Hlt : forall s, M s < 0 -> lt0 s = true).
    { intros s E. unfold lt0, n_M_lt_0. apply qltb_iff. unfold M, M_value in E. destruct (2 <=? uc)%Z eqn:Eu; [lra|].
      apply Z.leb_gt in Eu. unfold nlargest in E. replace (Z.to_nat (uc - 1)) with 0%nat in E by lia. cbn [firstn] in E. change (qsum []) with 0 in E. lra. }
    destruct (M_eventually lines (Z.of_nat m) uc S H1 H2 c_slope) as [c Hc].
    assert (G : forall n lo hi, 1 <= hi -> c < hi * inject_Z (2 ^ Z.of_nat n) ->
      forall fuel, (Datatypes.S n <= fuel)%nat -> exists r, n_bin_double fuel lt0 lo hi = Some r).
    { induction n; intros lo hi X1 X2 fuel Hf; (destruct fuel; [lia|]); cbn [n_bin_double].
      - change (inject_Z (2 ^ Z.of_nat 0)) with 1 in X2. rewrite Hlt; [eexists; reflexivity|]. specialize (Hc hi ltac:(lra)). fold M in Hc. lra.
      - destruct (lt0 hi) eqn:Eq; [eexists; reflexivity|]. apply IHn; [lra| |lia].
        rewrite Nat2Z.inj_succ, Z.pow_succ_r, inject_Z_mult in X2 by lia. change (inject_Z 2) with 2 in X2. lra. }
    exists (Datatypes.S (Z.to_nat (Qceiling c))). intros fuel rounds Hf. unfold n_gel_s. destruct rounds; [eexists; reflexivity|].
    unfold n_compute_binsearch_s. fold uc S lines. fold lt0.
    destruct (G (Z.to_nat (Qceiling c)) 0 1 ltac:(lra)) with (fuel := fuel) as [[lo hi] E]; [|exact Hf|rewrite E; eexists; reflexivity].
    apply Qle_lt_trans with (inject_Z (Qceiling c)); [apply Qle_ceiling|]. rewrite Qmult_1_l, <- Zlt_Qlt.
    destruct (Z.le_gt_cases (Qceiling c) 0).
    - pose proof (Z.pow_pos_nonneg 2 (Z.of_nat (Z.to_nat (Qceiling c))) ltac:(lia) ltac:(lia)). lia.
    - rewrite Z2Nat.id by lia. pose proof (Z.pow_gt_lin_r 2 (Qceiling c) ltac:(lia) ltac:(lia)). lia.
  Qed.
End Compute.

(** ** The uniprocessor shortcut *)
Lemma single_safe : forall ts pps, Forall srt_task ts -> length pps = length ts -> ts_utilization ts None <= 1 ->
  forallb (fun p => (snd p =? t_period (fst p))%Z) (combine ts pps) = true ->
  gel_responses (map cp_of ts) pps 1 (map t_period ts).
Proof.
  intros ts pps Hts Hlen HU Hp jobs sc Hl Hv Hpol j b Hj Eb. rewrite map_length in *.
  rewrite nth_error_map, (nth_error_nth' ts dtask Hj) in Eb. cbn in Eb. inversion Eb; subst b.
  assert (Epp : forall i, (i < length ts)%nat -> nth i pps 0%Z = t_period (nth i ts dtask)).
  { intros i Hi. rewrite forallb_forall in Hp. specialize (Hp (nth i ts dtask, nth i pps 0%Z)). cbn in Hp. apply Z.eqb_eq. apply Hp.
    rewrite <- combine_nth by (symmetry; exact Hlen). apply nth_In. rewrite combine_length, Hlen, Nat.min_id. exact Hi. }
  set (tk i := nth i ts dtask). set (C i := t_cost (tk i)). set (T i := t_period (tk i)). set (P := prod_periods ts). set (p i := (P / T i * C i)%Z).
  assert (HP : (0 < P)%Z) by (apply prod_periods_pos; exact Hts).
  assert (Hpi : forall i, (i < length ts)%nat -> (p i * T i = P * C i)%Z) by (intros i Hi; exact (s_p ts pps 1%nat Hts Hlen (le_n 1) i Hi)).
  assert (Hti : forall i, (i < length ts)%nat -> (0 <= C i <= T i /\ 1 <= T i)%Z) by (intros i Hi; exact (s_task ts Hts i Hi)).
  replace (t_period (nth (fst j) ts dtask)) with (T (fst j) + - C (fst j) + C (fst j))%Z by (unfold T, tk; lia).
  apply (gel_bound (length ts) 1 0 jobs sc C T T (fun i => - C i)%Z p P HP); try assumption.
  - intros i Hi. specialize (Hti i Hi). specialize (Hpi i Hi). repeat split; lia.
  - rewrite Zle_Qle, sumf_seq, inject_Z_mult. rewrite (qs_ext _ _ (fun i => utilization (tk i) * inject_Z P)).
    + rewrite qs_mul. fold tk. pose proof (s_util ts) as E. cbv zeta in E. fold tk in E. rewrite <- E. change (inject_Z (Z.of_nat 1)) with 1.
      assert (0 < inject_Z P) by (change 0 with (inject_Z 0); rewrite <- Zlt_Qlt; exact HP). nra.
    + intros i Hi. apply in_seq in Hi. pose proof (s_pu ts pps 1%nat Hts Hlen (le_n 1) i ltac:(lia)) as E. cbv zeta in E. unfold p, T, C, tk. unfold P. rewrite E. ring.
  - lia.
  - lia.
  - intros i A Hi _ _ HA. destruct A; [|cbn in HA; lia]. cbn [map zsum].
    rewrite (sumf_ext _ (fun _ => 0%Z)).
    + assert (E0 : sumf (fun _ => 0%Z) (length ts) = 0%Z) by (clear; generalize (length ts) as q; induction q as [|k IH]; [reflexivity|cbn [sumf]; lia]). rewrite E0.
      replace (Z.of_nat 1 * (- C i + 1) + C i)%Z with 1%Z by lia. lia.
    + intros k Hk. rewrite Z.min_id, (Hpi k Hk). lia.
  - apply legal_unpack. exact Hl.
  - intros t j0 Hj0 Hr Hni. destruct (Hpol t j0 Hj0 Hr Hni) as [H1 H2]. split; [exact H1|]. intros j' Hj'. specialize (H2 j' Hj').
    unfold prio_point in H2. destruct (Hv t) as [_ [_ Hv3]]. destruct (Hv3 j' Hj') as [Hj'n _].
    rewrite !Epp in H2 by assumption. exact H2.
Qed.
