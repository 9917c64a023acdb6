(** Stretching time, so that rational priority points become integers. *)
From Coq Require Import ZArith QArith Qround Lqa List Bool Lia Permutation.
From Verif Require Import Base SpecUni SpecQPA SpecGlobal SpecTardiness ModelTasks ProofTasks ModelTardiness ModelGFRL SpecGFRL
  ProofTardiness ProofTardinessSafe ProofTardinessTop PropTardiness ProofGFRL.
Import ListNotations.

Section Stretch.
  Variable d : nat.
  Hypothesis Hd : (1 <= d)%nat.
  Variables (js : jobseq) (sc : gschedule).

  Definition stretch_jobs : jobseq :=
    JobSeq (fun i k => (d * arr js i k)%nat) (fun i k => (d * rel js i k)%nat) (fun i k => (d * cst js i k)%nat).
  Definition stretch_sc : gschedule := fun t => sc (t / d)%nat.

  Open Scope Z_scope.

  Lemma stretch_service : forall j t, gservice stretch_sc j t =
    Z.of_nat d * gservice sc j (t / d) + Z.of_nat (t mod d) * b2z (gruns sc j (t / d)).
  Proof.
    intros j. induction t as [|t IH].
    - rewrite Nat.div_0_l, Nat.mod_0_l by lia. cbn. lia.
    - assert (E : gservice stretch_sc j (S t) = gservice stretch_sc j t + b2z (gruns sc j (t / d))) by reflexivity.
      rewrite E, IH. pose proof (Nat.div_mod t d ltac:(lia)) as D. pose proof (Nat.mod_upper_bound t d ltac:(lia)) as B.
      destruct (Nat.eq_dec (t mod d) (d - 1)) as [Q|Q].
      + assert (E1 : (S t / d = S (t / d))%nat) by (symmetry; apply Nat.div_unique with (r := 0%nat); lia).
        assert (E2 : (S t mod d = 0)%nat) by (symmetry; apply Nat.mod_unique with (q := S (t / d)); lia).
        rewrite E1, E2, Q.
        assert (E3 : gservice sc j (S (t / d)) = gservice sc j (t / d) + b2z (gruns sc j (t / d))) by reflexivity.
        rewrite E3. rewrite Nat2Z.inj_sub by lia. lia.
      + assert (E1 : (S t / d = t / d)%nat) by (symmetry; apply Nat.div_unique with (r := S (t mod d)); lia).
        assert (E2 : (S t mod d = S (t mod d))%nat) by (symmetry; apply Nat.mod_unique with (q := (t / d)%nat); lia).
        rewrite E1, E2. lia.
  Qed.

  Lemma stretch_completed : forall j t, gcompleted stretch_jobs stretch_sc j t <-> gcompleted js sc j (t / d).
  Proof.
    intros j t. unfold gcompleted. rewrite stretch_service. cbn [cst stretch_jobs]. rewrite Nat2Z.inj_mul.
    pose proof (Nat.mod_upper_bound t d ltac:(lia)) as B. assert (0 <= b2z (gruns sc j (t / d)) <= 1) by (destruct (gruns sc j (t / d)); cbn; lia).
    set (r := Z.of_nat (t mod d)) in *. assert (0 <= r < Z.of_nat d) by lia. split; intros H1.
    - destruct (Z_le_gt_dec (Z.of_nat (cst js (fst j) (snd j))) (gservice sc j (t / d))); [assumption|exfalso; nia].
    - nia.
  Qed.

  Lemma stretch_ready : forall j t, gready stretch_jobs stretch_sc j t <-> gready js sc j (t / d).
  Proof.
    intros j t. unfold gready.
    assert (A : (rel stretch_jobs (fst j) (snd j) <= t <-> rel js (fst j) (snd j) <= t / d)%nat).
    { cbn [rel stretch_jobs]. split; intros H.
      - apply Nat.div_le_lower_bound; [lia|exact H].
      - pose proof (Nat.mul_div_le t d ltac:(lia)). nia. }
    assert (B : gservice stretch_sc j t < Z.of_nat (cst stretch_jobs (fst j) (snd j)) <-> gservice sc j (t / d) < Z.of_nat (cst js (fst j) (snd j))).
    { pose proof (stretch_completed j t) as H. unfold gcompleted in H. lia. }
    rewrite A, B. split; intros (H1 & H2 & H3); (split; [exact H1|]; split; [exact H2|]); intros k Hk; apply stretch_completed, H3, Hk.
  Qed.

  Lemma stretch_valid : forall n m, gvalid n m js sc -> gvalid n m stretch_jobs stretch_sc.
  Proof.
    intros n m H t. destruct (H (t / d)%nat) as (A & B & D). split; [exact A|]. split; [exact B|].
    intros j Hj. destruct (D j Hj) as (D1 & D2). split; [exact D1|]. apply stretch_ready, D2.
  Qed.
End Stretch.

(** ** a common denominator *)
Definition common (l : list Q) : positive := fold_right (fun q p => Qden q * p)%positive 1%positive l.

Lemma common_int : forall l q, In q l -> exists z, (inject_Z z == q * inject_Z (Zpos (common l)))%Q.
Proof.
  induction l as [|a l IH]; intros q Hq; [destruct Hq|]. cbn [common fold_right]. fold (common l). destruct Hq as [->|Hq].
  - exists (Qnum q * Zpos (common l))%Z. unfold Qeq, Qmult, inject_Z. cbn. rewrite Pos2Z.inj_mul. lia.
  - destruct (IH q Hq) as (z & E). exists (z * Zpos (Qden a))%Z. rewrite inject_Z_mult, E, Pos2Z.inj_mul, inject_Z_mult. ring.
Qed.

Lemma common_points : forall l c, (forall q, In q l -> exists z, inject_Z z == q * c)%Q ->
  exists zs, length zs = length l /\ forall i, (i < length l)%nat -> (inject_Z (nth i zs 0%Z) == nth i l 0 * c)%Q.
Proof.
  induction l as [|a l IH]; intros c H; [exists []; split; [reflexivity|intros i Hi; cbn in Hi; lia]|].
  destruct (H a (or_introl eq_refl)) as (z & Ez). destruct (IH c) as (zs & E1 & E2); [intros q Hq; apply H; right; exact Hq|].
  exists (z :: zs). split; [cbn; rewrite E1; reflexivity|]. intros [|i] Hi; [exact Ez|]. cbn in Hi |- *. apply E2. lia.
Qed.

(** ** safety of rational priority points *)
Open Scope Q_scope.

Definition stretch_task (d : Z) (t : task) : task := Task (t_cost t * d) (t_period t * d) (t_deadline t * d).

Definition qtriple_of (p : task * Q) : qtriple := (t_cost (fst p), t_period (fst p), snd p).

Lemma stretch_util : forall d ts, (1 <= d)%Z -> Forall srt_task ts ->
  ts_utilization (map (stretch_task d) ts) None == ts_utilization ts None.
Proof.
  intros d ts Hd Hts. cbn [ts_utilization]. rewrite map_map. apply qs_ext. intros t Ht. rewrite Forall_forall in Hts. destruct (Hts t Ht) as [_ H].
  unfold utilization, zdivq. cbn [stretch_task t_cost t_period]. rewrite !inject_Z_mult.
  rewrite Zle_Qle in H. rewrite Zle_Qle in Hd. change (inject_Z 1) with 1 in *. field. lra.
Qed.

Section Rational.
  Variables (ts : taskset) (pps : list Q) (m : nat) (s : Q).
  Let n := length ts.
  Let K := Z.to_nat (Qceiling (ts_utilization ts None) - 1).
  Let mq := inject_Z (Z.of_nat m).
  Let tk i := nth i ts dtask.
  Let p i := nth i pps 0.
  Hypothesis Hts : Forall srt_task ts.
  Hypothesis Hlen : length pps = length ts.
  Hypothesis Hp : forall i, (i < n)%nat -> 0 <= p i /\ p i <= inject_Z (t_period (tk i)).
  Hypothesis Hm : (1 <= m)%nat.
  Hypothesis HU : ts_utilization ts None <= inject_Z (Z.of_nat m).
  Hypothesis Hs : 0 <= s.
  Hypothesis Hc : forall A, index_set n K A -> delaying mq (map qtriple_of (combine ts pps)) s A <= mq * s.

  Lemma r_nth : forall i, (i < n)%nat -> nth i (map qtriple_of (combine ts pps)) (0%Z, 1%Z, 0) = qtriple_of (tk i, p i).
  Proof.
    intros i Hi. rewrite (nth_indep _ (0%Z, 1%Z, 0) (qtriple_of (dtask, 0))) by (rewrite map_length, combine_length, Hlen, Nat.min_id; exact Hi).
    rewrite (map_nth qtriple_of). rewrite combine_nth by (symmetry; exact Hlen). reflexivity.
  Qed.

  Lemma rational_safe : forall js sc,
    legal_seq (map (fun cp => Promise (fst cp) (snd cp) 0) (map cp_of ts)) js ->
    gvalid n m js sc -> gel_q pps n m js sc ->
    forall j, (fst j < n)%nat ->
      responds js sc j (Qfloor (p (fst j) + s - zdivq (t_cost (tk (fst j))) (Z.of_nat m) + inject_Z (t_cost (tk (fst j))))).
  Proof.
    intros js sc Hl Hv Hg j Hj. set (D := common pps). set (dz := Zpos D). set (d := Pos.to_nat D).
    assert (Ed : Z.of_nat d = dz) by (unfold d, dz; apply positive_nat_Z).
    assert (Hd : (1 <= d)%nat) by (unfold d; lia).
    assert (Hdz : (1 <= dz)%Z) by lia.
    assert (Hdq : 1 <= inject_Z dz) by (change 1 with (inject_Z 1); rewrite <- Zle_Qle; exact Hdz).
    set (dq := inject_Z dz) in *.
    destruct (common_points pps dq) as (apps & La & Ea); [intros q Hq; apply common_int, Hq|].
    rewrite Hlen in La, Ea. set (ts' := map (stretch_task dz) ts).
    assert (Ln : length ts' = length ts) by apply map_length.
    assert (Etk : forall i, (i < length ts)%nat -> nth i ts' dtask = stretch_task dz (tk i)).
    { intros i Hi. unfold ts'. rewrite (nth_indep _ dtask (stretch_task dz dtask)) by (rewrite map_length; exact Hi). rewrite (map_nth (stretch_task dz)). reflexivity. }
    assert (Hts' : Forall srt_task ts').
    { rewrite Forall_forall in *. intros t Ht. apply in_map_iff in Ht. destruct Ht as (t0 & <- & Ht0). specialize (Hts t0 Ht0).
      unfold srt_task in *. cbn [stretch_task t_cost t_period]. nia. }
    assert (La' : length apps = length ts') by (rewrite Ln; exact La).
    assert (Hz : forall i, (i < length ts)%nat -> (0 <= nth i apps 0 <= t_period (tk i) * dz)%Z).
    { intros i Hi. destruct (Hp i Hi) as (P1 & P2). specialize (Ea i Hi). fold (p i) in Ea.
      split; rewrite Zle_Qle; [change (inject_Z 0) with 0|rewrite inject_Z_mult; fold dq]; nra. }
    assert (Hap : Forall (fun a => 0 <= a)%Z apps).
    { apply Forall_forall. intros a Ha. destruct (In_nth _ _ 0%Z Ha) as (i & Hi & <-). apply Hz. lia. }
    assert (EU : ts_utilization ts' None == ts_utilization ts None) by (apply stretch_util; assumption).
    assert (HU' : ts_utilization ts' None <= inject_Z (Z.of_nat m)) by (rewrite EU; exact HU).
    assert (EK : Z.to_nat (Qceiling (ts_utilization ts' None) - 1) = K) by (unfold K; rewrite EU; reflexivity).
    assert (Hmq : 1 <= mq) by (unfold mq; change 1 with (inject_Z 1); rewrite <- Zle_Qle; lia).
    assert (Hcp : compliance m K (map triple_of (combine ts' apps)) (s * dq)).
    { assert (El : length (map triple_of (combine ts' apps)) = length ts) by (rewrite map_length, combine_length, La', Nat.min_id; exact Ln).
      assert (Et : forall i, (i < length ts)%nat -> nth i (map triple_of (combine ts' apps)) (0%Z, 1%Z, 0%Z) = triple_of (stretch_task dz (tk i), nth i apps 0%Z)).
      { intros i Hi. rewrite (nth_indep _ (0%Z, 1%Z, 0%Z) (triple_of (dtask, 0%Z))) by (rewrite El; exact Hi).
        rewrite (map_nth triple_of). rewrite combine_nth by (symmetry; exact La'). rewrite Etk by exact Hi. reflexivity. }
      assert (Eu : forall i, (i < length ts)%nat -> u_of (triple_of (stretch_task dz (tk i), nth i apps 0%Z)) == util_q (qtriple_of (tk i, p i))).
      { intros i Hi. unfold u_of, util_q. cbn [triple_of qtriple_of fst snd stretch_task t_cost t_period]. rewrite !inject_Z_mult. fold dq.
        rewrite Forall_forall in Hts. destruct (Hts (tk i) (nth_In _ _ Hi)) as [_ H]. rewrite Zle_Qle in H. change (inject_Z 1) with 1 in H. field. lra. }
      assert (Elt : forall i, (i < length ts)%nat -> late_of (triple_of (stretch_task dz (tk i), nth i apps 0%Z)) == p i * dq).
      { intros i Hi. unfold late_of. cbn [triple_of fst snd stretch_task t_cost t_period]. rewrite Z.min_l by (apply Hz; exact Hi). apply Ea, Hi. }
      split; [nra|]. intros A A1 A3 A2. rewrite El in A2.
      specialize (Hc A (conj A1 (conj A2 A3))). unfold delaying in Hc. change (fold_right Qplus 0) with qsum in *.
      rewrite (map_index _ _ _ (0%Z, 1%Z, 0)) in Hc. rewrite (map_index _ _ _ (0%Z, 1%Z, 0%Z)). rewrite El.
      rewrite map_length, combine_length, Hlen, Nat.min_id in Hc.
      rewrite (qs_ext _ _ (fun i => (cost_q (nth i (map qtriple_of (combine ts pps)) (0%Z, 1%Z, 0)) -
          util_q (nth i (map qtriple_of (combine ts pps)) (0%Z, 1%Z, 0)) * snd (nth i (map qtriple_of (combine ts pps)) (0%Z, 1%Z, 0))) * dq)).
      2:{ intros i Hi. apply in_seq in Hi. rewrite Et, r_nth by (unfold n; lia). rewrite Eu, Elt by lia.
          unfold cost_q. cbn [triple_of qtriple_of fst snd stretch_task t_cost t_period]. rewrite inject_Z_mult. fold dq. ring. }
      rewrite (qs_ext _ (fun i => let t := nth i (map triple_of (combine ts' apps)) (0%Z, 1%Z, 0%Z) in u_of t * (x_of m (s * dq) t + late_of t))
        (fun i => (let t := nth i (map qtriple_of (combine ts pps)) (0%Z, 1%Z, 0) in util_q t * (s - cost_q t / mq + snd t)) * dq)).
      2:{ intros i Hi. specialize (A2 i Hi). cbv zeta. rewrite Et, r_nth by (unfold n; lia). rewrite Eu, Elt by lia.
          unfold x_of, cost_q. cbn [triple_of qtriple_of fst snd stretch_task t_cost t_period]. rewrite inject_Z_mult. fold dq mq. field. lra. }
      rewrite !qs_mul. fold mq. apply (Qmult_le_compat_r _ _ dq) in Hc; [|lra]. rewrite Qmult_plus_distr_l in Hc. eapply Qle_trans; [exact Hc|]. lra. }
    apply (compliance_iff m K ts' apps (s * dq) Hm Hts' La' Hap) in Hcp. rewrite <- EK in Hcp.
    pose proof (compliant_responds ts' apps m Hts' La' Hap Hm HU' (s * dq) (stretch_jobs d js) (stretch_sc d sc) Hcp) as R.
    rewrite Ln in R. assert (Hlu := legal_unpack ts js Hl).
    assert (R' : responds (stretch_jobs d js) (stretch_sc d sc) j
      (nth (fst j) apps 0 + Qfloor (s * dq - zdivq (t_cost (nth (fst j) ts' dtask)) (Z.of_nat m)) + t_cost (nth (fst j) ts' dtask))%Z).
    { apply R; [| |intros t j0 Hj0 Hr Hni|exact Hj].
      - intros i Hi k. destruct (Hlu i Hi k) as (B1 & B2 & B3). rewrite Etk by exact Hi. cbn [stretch_task t_cost t_period stretch_jobs arr rel cst].
        rewrite B2. fold (tk i) in B1, B3. rewrite !Nat2Z.inj_mul, Ed. split; [nia|]. split; [reflexivity|nia].
      - apply stretch_valid; assumption.
      - apply (stretch_ready d Hd js sc) in Hr. destruct (Hg (t / d)%nat j0 Hj0 Hr Hni) as (G1 & G2). split; [exact G1|].
        intros j' Hj'. specialize (G2 j' Hj'). destruct (Hv (t / d)%nat) as (_ & _ & V). destruct (V j' Hj') as (Hj'n & _).
        cbn [stretch_jobs arr]. rewrite !Nat2Z.inj_mul, Ed. rewrite Zle_Qle, !inject_Z_plus, !inject_Z_mult. fold dq.
        rewrite !Ea by assumption. unfold prio_q in G2. nra. }
    destruct R' as (q & Q1 & Q2). apply (stretch_completed d Hd js sc) in Q2. exists (q / d)%nat. split; [|exact Q2].
    rewrite Etk in Q1 by exact Hj. cbn [stretch_jobs arr stretch_task t_cost] in Q1. rewrite Nat2Z.inj_mul, Ed in Q1.
    assert (Q3 : (Z.of_nat (q / d) * dz <= Z.of_nat q)%Z).
    { rewrite <- Ed. rewrite <- Nat2Z.inj_mul. apply inj_le. rewrite Nat.mul_comm. apply Nat.mul_div_le. lia. }
    set (a := Z.of_nat (arr js (fst j) (snd j))) in *. set (bnd := p (fst j) + s - zdivq (t_cost (tk (fst j))) (Z.of_nat m) + inject_Z (t_cost (tk (fst j)))).
    pose proof (Qfloor_le (s * dq - zdivq (t_cost (tk (fst j)) * dz) (Z.of_nat m))) as F.
    assert (E : zdivq (t_cost (tk (fst j)) * dz) (Z.of_nat m) == zdivq (t_cost (tk (fst j))) (Z.of_nat m) * dq).
    { unfold zdivq. rewrite inject_Z_mult. fold dq mq. field. lra. }
    assert (G : inject_Z (Z.of_nat (q / d) - a) <= bnd).
    { assert (G1 : inject_Z (Z.of_nat (q / d) - a) * dq <= bnd * dq).
      { assert (X : ((Z.of_nat (q / d) - a) * dz <= nth (fst j) apps 0 + Qfloor (s * dq - zdivq (t_cost (tk (fst j)) * dz) (Z.of_nat m)) + t_cost (tk (fst j)) * dz)%Z) by lia.
        rewrite Zle_Qle, !inject_Z_plus, !inject_Z_mult in X. fold dq in X. rewrite (Ea (fst j) Hj) in X. fold (p (fst j)) in X.
        unfold bnd. rewrite E in F at 2. nra. }
      nra. }
    apply Qfloor_resp_le in G. rewrite Qfloor_Z in G. lia.
  Qed.
End Rational.
