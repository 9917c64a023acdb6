(** Facts about uniprocessor schedules and the busy-window argument. *)
From Coq Require Import ZArith List Bool Lia.
From Verif Require Import Base SpecUni.
Import ListNotations.
Open Scope Z_scope.

Lemma job_eqb_spec : forall a b, reflect (a = b) (job_eqb a b).
Proof.
  intros [a1 a2] [b1 b2]. unfold job_eqb. simpl.
  destruct (Nat.eqb_spec a1 b1); destruct (Nat.eqb_spec a2 b2); simpl; constructor; congruence.
Qed.

Lemma runs_iff : forall sc j t, runs sc j t = true <-> sc t = Some j.
Proof.
  intros. unfold runs. destruct (sc t) as [j'|]; [|split; congruence].
  destruct (job_eqb_spec j' j); split; congruence.
Qed.

Lemma service_mono : forall sc j a b, (a <= b)%nat -> service sc j a <= service sc j b.
Proof.
  intros. unfold service. apply sumf_mono; [assumption|]. intros. destruct (b2z_range (runs sc j k)). lia.
Qed.

Lemma service_nonneg : forall sc j t, 0 <= service sc j t.
Proof. intros. unfold service. apply sumf_nonneg. intros. apply b2z_range. Qed.

Lemma service_step : forall sc j t, service sc j (S t) = service sc j t + b2z (runs sc j t).
Proof. reflexivity. Qed.

Lemma service_le_time : forall sc j t, service sc j t <= Z.of_nat t.
Proof.
  induction t; [reflexivity|]. rewrite service_step. pose proof (b2z_range (runs sc j t)). lia.
Qed.

Lemma completed_mono : forall s sc j a b, (a <= b)%nat -> completed s sc j a -> completed s sc j b.
Proof. unfold completed. intros. pose proof (service_mono sc j a b H). lia. Qed.

Section Valid.
  Variables (n : nat) (s : jobseq) (sc : schedule).
  Hypothesis Hv : valid_schedule n s sc.

  Lemma service_le_cost : forall j t, service sc j t <= Z.of_nat (cst s (fst j) (snd j)).
  Proof.
    intros j t. induction t.
    - cbn. lia.
    - rewrite service_step. destruct (runs sc j t) eqn:E; simpl b2z; [|lia].
      apply runs_iff in E. apply Hv in E. destruct E as [_ [_ E]]. lia.
  Qed.

  Lemma service_frozen : forall j a b, (a <= b)%nat -> completed s sc j a ->
    service sc j b = service sc j a.
  Proof.
    intros j a b Hab Hc. pose proof (service_le_cost j b). pose proof (service_mono sc j a b Hab).
    unfold completed in Hc. lia.
  Qed.

  Lemma service_before_release : forall j t, (t <= rel s (fst j) (snd j))%nat -> service sc j t = 0.
  Proof.
    intros j t. induction t; intros Ht; [reflexivity|].
    rewrite service_step, IHt by lia. destruct (runs sc j t) eqn:E; [|reflexivity].
    apply runs_iff in E. apply Hv in E. destruct E as [_ [E _]]. lia.
  Qed.

  Lemma runs_pending : forall j t, runs sc j t = true -> pending s sc j t.
  Proof. intros j t H. apply runs_iff in H. apply Hv in H. tauto. Qed.
End Valid.

(** at most one term of the sum is non-zero *)
Lemma sumf_single : forall f n k0, (k0 < n)%nat -> (forall k, (k < n)%nat -> k <> k0 -> f k = 0) ->
  sumf f n = f k0.
Proof.
  induction n as [|n IH]; intros k0 Hk H; [lia|]. simpl.
  destruct (Nat.eq_dec k0 n) as [->|].
  - rewrite sumf_zero; [lia|]. intros. apply H; lia.
  - rewrite (IH k0) by (try lia; intros; apply H; lia). rewrite (H n) by lia. lia.
Qed.

(** Number of elements of a [T]-separated sequence in [a, b). *)
Lemma count_separated : forall (f : nat -> nat) T a K, 0 < T ->
  (forall k, Z.of_nat (f k) + T <= Z.of_nat (f (S k))) ->
  forall b, sumf (fun k => b2z ((a <=? Z.of_nat (f k)) && (Z.of_nat (f k) <? b))) K
            <= Z.max 0 (cdiv (b - a) T).
Proof.
  intros f T a K HT Hf.
  assert (Hlt : forall d k, Z.of_nat (f k) + T * Z.of_nat d <= Z.of_nat (f (k + d)%nat)).
  { induction d; intros k.
    - rewrite Nat.add_0_r. lia.
    - rewrite Nat.add_succ_r. specialize (IHd k). specialize (Hf (k + d)%nat). lia. }
  induction K as [|K IH]; intros b; cbn [sumf]; [lia|].
  destruct ((a <=? Z.of_nat (f K)) && (Z.of_nat (f K) <? b)) eqn:E; cbn [b2z].
  - apply andb_prop in E. destruct E as [E1 E2]. apply Z.leb_le in E1. apply Z.ltb_lt in E2.
    rewrite (sumf_ext _ (fun k => b2z ((a <=? Z.of_nat (f k)) && (Z.of_nat (f k) <? Z.of_nat (f K) - T + 1)))).
    2:{ intros k Hk. specialize (Hlt (K - k)%nat k). replace (k + (K - k))%nat with K in Hlt by lia.
        f_equal. f_equal. rewrite !(proj2 (Z.ltb_lt _ _)) by nia. reflexivity. }
    specialize (IH (Z.of_nat (f K) - T + 1)).
    replace (Z.of_nat (f K) - T + 1 - a) with (Z.of_nat (f K) + 1 - a + (-1) * T) in IH by lia.
    rewrite cdiv_add_mul in IH by lia.
    assert (1 <= cdiv (Z.of_nat (f K) + 1 - a) T) by (apply cdiv_pos; lia).
    assert (cdiv (Z.of_nat (f K) + 1 - a) T <= cdiv (b - a) T) by (apply cdiv_le; lia).
    lia.
  - specialize (IH b). lia.
Qed.

Lemma separated_ge : forall (f : nat -> nat) T, 1 <= T ->
  (forall k, Z.of_nat (f k) + T <= Z.of_nat (f (S k))) -> forall k, (k <= f k)%nat.
Proof. intros f T HT Hf. induction k; [lia|]. specialize (Hf k). lia. Qed.


Lemma hep_iff : forall j' j, hep j' j = true <->
  (fst j' < fst j)%nat \/ (fst j' = fst j /\ (snd j' <= snd j)%nat).
Proof.
  intros. unfold hep. rewrite orb_true_iff, andb_true_iff, Nat.ltb_lt, Nat.eqb_eq, Nat.leb_le. tauto.
Qed.

Lemma hep_refl : forall j, hep j j = true.
Proof. intros. apply hep_iff. right. split; lia. Qed.

(** ** Slots used by jobs satisfying a predicate, counted per job *)
Section Slots.
  Variables (sc : schedule) (P : job -> bool) (N K : nat).

  Definition servesP (t : nat) : bool := match sc t with Some j => P j | None => false end.

  Lemma serves_split : forall t,
    (forall j, sc t = Some j -> P j = true -> (fst j < N)%nat /\ (snd j < K)%nat) ->
    b2z (servesP t) = sumf (fun h => sumf (fun k => if P (h, k) then b2z (runs sc (h, k) t) else 0) K) N.
  Proof.
    intros t Hk. unfold servesP. destruct (sc t) as [[h0 k0]|] eqn:E.
    - specialize (Hk _ eq_refl). cbn [fst snd] in *.
      assert (Hz : forall h k, (h, k) <> (h0, k0) -> (if P (h, k) then b2z (runs sc (h, k) t) else 0) = 0).
      { intros h k Hne. unfold runs. rewrite E. destruct (P (h, k)); [|reflexivity].
        destruct (job_eqb_spec (h0, k0) (h, k)); [congruence|reflexivity]. }
      destruct (P (h0, k0)) eqn:EP.
      + destruct (Hk eq_refl) as [H1 H2]. rewrite (sumf_single _ N h0); [|lia|].
        * rewrite (sumf_single _ K k0); [|lia|].
          -- rewrite EP. unfold runs. rewrite E. destruct (job_eqb_spec (h0, k0) (h0, k0)); [reflexivity|congruence].
          -- intros. apply Hz. congruence.
        * intros. apply sumf_zero. intros. apply Hz. congruence.
      + symmetry. apply sumf_zero. intros h Hh. apply sumf_zero. intros k Hkk.
        destruct (job_eqb_spec (h, k) (h0, k0)) as [F|F]; [rewrite F, EP; reflexivity|apply Hz; assumption].
    - symmetry. apply sumf_zero. intros h Hh. apply sumf_zero. intros. unfold runs. rewrite E.
      destruct (P (h, k)); reflexivity.
  Qed.

  Lemma serves_window : forall t1 d,
    (forall u, (u < d)%nat -> forall j, sc (t1 + u)%nat = Some j -> P j = true ->
       (fst j < N)%nat /\ (snd j < K)%nat) ->
    sumf (fun u => b2z (servesP (t1 + u))) d =
    sumf (fun h => sumf (fun k => if P (h, k) then service sc (h, k) (t1 + d) - service sc (h, k) t1 else 0) K) N.
  Proof.
    intros t1 d Hk.
    rewrite (sumf_ext _ (fun u => sumf (fun h => sumf (fun k => if P (h, k) then b2z (runs sc (h, k) (t1 + u)) else 0) K) N)).
    2:{ intros u Hu. apply serves_split. intros j Hj HP. eapply Hk; eassumption. }
    rewrite (sumf_swap (fun u h => sumf (fun k => if P (h, k) then b2z (runs sc (h, k) (t1 + u)) else 0) K)).
    apply sumf_ext. intros h Hh.
    rewrite (sumf_swap (fun u k => if P (h, k) then b2z (runs sc (h, k) (t1 + u)) else 0)).
    apply sumf_ext. intros k Hkk. destruct (P (h, k)).
    - unfold service. rewrite sumf_split. lia.
    - apply sumf_zero. reflexivity.
  Qed.
End Slots.

(** ** Busy-window argument for fixed priorities *)
Section BusyWindow.
  Variables (ps : list promise) (s : jobseq) (sc : schedule) (b : nat -> Z).
  Hypothesis Hlegal : legal_seq ps s.
  Hypothesis Hper : Forall (fun p => 1 <= pr_period p /\ 0 <= pr_cost p /\ 0 <= pr_jitter p) ps.
  Hypothesis Hvalid : valid_schedule (length ps) s sc.
  Hypothesis Hpolicy : fp_policy (length ps) s sc b.
  Variables i k0 : nat.
  Hypothesis Hi : (i < length ps)%nat.

  Let prm h := nth h ps (Promise 0 1 0).

  Lemma prm_some : forall h, (h <= i)%nat -> nth_error ps h = Some (prm h).
  Proof. intros. apply nth_error_nth'. lia. Qed.

  Lemma prm_pos : forall h, (h <= i)%nat -> 1 <= pr_period (prm h) /\ 0 <= pr_cost (prm h) /\ 0 <= pr_jitter (prm h).
  Proof.
    intros h Hh. rewrite Forall_forall in Hper. apply Hper. eapply nth_error_In. apply prm_some. assumption.
  Qed.

  Lemma arr_ge_index : forall h k, (h <= i)%nat -> (k <= arr s h k)%nat.
  Proof.
    intros h k Hh. destruct (prm_pos h Hh) as [HT _].
    pose proof (fun k => proj1 (Hlegal _ _ (prm_some h Hh) k)) as Hsep.
    apply (separated_ge (arr s h) _ HT Hsep k).
  Qed.

  Lemma rel_ge_index : forall h k, (h <= i)%nat -> (k <= rel s h k)%nat.
  Proof.
    intros h k Hh. pose proof (arr_ge_index h k Hh).
    destruct (Hlegal _ _ (prm_some h Hh) k) as [_ [? _]]. lia.
  Qed.

  Definition target : job := (i, k0).
  Definition hepT (j : job) : bool := hep j target.

  Lemma hepT_le : forall h k, hepT (h, k) = true -> (h <= i)%nat.
  Proof. intros h k H. apply hep_iff in H. simpl in H. lia. Qed.

  (** no hep work released before q is left at q *)
  Definition quiet (q : nat) : Prop :=
    forall h k, hepT (h, k) = true -> (rel s h k < q)%nat -> completed s sc (h, k) q.

  Definition incompleteb (q h k : nat) : bool :=
    hepT (h, k) && (Nat.ltb (rel s h k) q) && (service sc (h, k) q <? Z.of_nat (cst s h k)).
  Definition quietb (q : nat) : bool :=
    negb (existsb (fun h => existsb (fun k => incompleteb q h k) (seq 0 q)) (seq 0 (S i))).

  Lemma quietb_true : forall q, quietb q = true -> quiet q.
  Proof.
    intros q H h k Hh Hr. unfold quietb in H. apply negb_true_iff in H. pose proof (hepT_le _ _ Hh).
    unfold completed. simpl. destruct (Z.le_gt_cases (Z.of_nat (cst s h k)) (service sc (h, k) q)); [assumption|].
    exfalso. assert (E : existsb (fun h => existsb (fun k => incompleteb q h k) (seq 0 q)) (seq 0 (S i)) = true); [|congruence].
    apply existsb_exists. exists h. split; [apply in_seq; lia|].
    apply existsb_exists. exists k. split.
    - apply in_seq. pose proof (rel_ge_index h k H0). lia.
    - unfold incompleteb. rewrite Hh. rewrite (proj2 (Nat.ltb_lt _ _)) by lia. rewrite (proj2 (Z.ltb_lt _ _)) by lia. reflexivity.
  Qed.

  Lemma quietb_false : forall q, quietb q = false ->
    exists h k, hepT (h, k) = true /\ (rel s h k < q)%nat /\ service sc (h, k) q < Z.of_nat (cst s h k).
  Proof.
    intros q H. unfold quietb in H. apply negb_false_iff in H. apply existsb_exists in H.
    destruct H as [h [Hh H]]. apply existsb_exists in H. destruct H as [k [Hk H]].
    apply in_seq in Hh. unfold incompleteb in H. apply andb_prop in H. destruct H as [H1 H2].
    apply andb_prop in H1. destruct H1 as [H0 H1].
    apply Nat.ltb_lt in H1. apply Z.ltb_lt in H2. exists h, k. repeat split; try lia. assumption.
  Qed.

  Lemma last_quiet : forall r, exists t1, (t1 <= r)%nat /\ quietb t1 = true /\
    forall q, (t1 < q <= r)%nat -> quietb q = false.
  Proof.
    induction r as [|r IH].
    - exists 0%nat. repeat split; try lia. unfold quietb. apply negb_true_iff.
      apply not_true_is_false. intro E. apply existsb_exists in E. destruct E as [? [_ E]]. discriminate.
    - destruct (quietb (S r)) eqn:E.
      + exists (S r). repeat split; try lia. assumption.
      + destruct IH as [t1 [H1 [H2 H3]]]. exists t1. repeat split; try lia; try assumption.
        intros q Hq. destruct (Nat.eq_dec q (S r)) as [->|]; [assumption|]. apply H3. lia.
  Qed.

  (** number of own jobs up to [k0] arriving in [a, e) *)
  Definition own_count (a e : Z) : Z :=
    sumf (fun k => b2z ((a <=? Z.of_nat (arr s i k)) && (Z.of_nat (arr s i k) <? e))) (S k0).

  Definition hp_demand (d : Z) : Z :=
    sumf (fun h => pr_cost (prm h) * cdiv (d + pr_jitter (prm h)) (pr_period (prm h))) i.

  Definition arrives_in (t1 d h k : nat) : bool :=
    (Z.of_nat t1 - pr_jitter (prm h) <=? Z.of_nat (arr s h k)) && (Z.of_nat (arr s h k) <? Z.of_nat (t1 + d)).

  (** per-job bound on the work done in a window after a quiet time *)
  Lemma window_job : forall t1 d h k extra, hepT (h, k) = true -> quiet t1 ->
    0 <= extra -> (extra <> 0 -> (t1 <= rel s h k < t1 + d)%nat) ->
    extra <= Z.of_nat (cst s h k) - service sc (h, k) (t1 + d) ->
    service sc (h, k) (t1 + d) - service sc (h, k) t1 + extra <= pr_cost (prm h) * b2z (arrives_in t1 d h k).
  Proof.
    intros t1 d h k extra Hh Hq Hx0 Hx1 Hx2. pose proof (hepT_le _ _ Hh) as Hle.
    destruct (prm_pos h Hle) as [HT [HC HJ]]. pose proof (prm_some h Hle) as Hp.
    destruct (Hlegal _ _ Hp k) as [_ [Har [Hrj Hc]]].
    pose proof (b2z_range (arrives_in t1 d h k)) as Hb.
    destruct (Nat.lt_ge_cases (rel s h k) t1) as [G|G].
    - assert (Hcm : completed s sc (h, k) t1) by (apply Hq; assumption).
      rewrite (service_frozen _ _ _ Hvalid (h, k) t1 (t1 + d)) by (try lia; assumption).
      destruct (Z.eq_dec extra 0) as [->|Hne]; [|specialize (Hx1 Hne); lia]. nia.
    - rewrite (service_before_release _ _ _ Hvalid (h, k) t1) by (simpl; lia).
      destruct (Nat.lt_ge_cases (rel s h k) (t1 + d)) as [L|L].
      + assert (arrives_in t1 d h k = true) as ->.
        { unfold arrives_in. rewrite (proj2 (Z.leb_le _ _)) by lia. rewrite (proj2 (Z.ltb_lt _ _)) by lia. reflexivity. }
        cbn [b2z]. lia.
      + rewrite (service_before_release _ _ _ Hvalid (h, k) (t1 + d)) by (simpl; lia).
        destruct (Z.eq_dec extra 0) as [->|Hne]; [|specialize (Hx1 Hne); lia]. nia.
  Qed.

  Lemma count_hp : forall t1 d h K, (h <= i)%nat ->
    sumf (fun k => b2z (arrives_in t1 d h k)) K <= cdiv (Z.of_nat d + pr_jitter (prm h)) (pr_period (prm h)).
  Proof.
    intros t1 d h K Hh. destruct (prm_pos h Hh) as [HT [HC HJ]]. pose proof (prm_some h Hh) as Hp.
    pose proof (count_separated (arr s h) (pr_period (prm h)) (Z.of_nat t1 - pr_jitter (prm h)) K ltac:(lia)
      (fun k => proj1 (Hlegal _ _ Hp k)) (Z.of_nat (t1 + d))) as Hcnt.
    replace (Z.of_nat (t1 + d) - (Z.of_nat t1 - pr_jitter (prm h))) with (Z.of_nat d + pr_jitter (prm h)) in Hcnt by lia.
    pose proof (cdiv_nonneg (Z.of_nat d + pr_jitter (prm h)) (pr_period (prm h)) ltac:(lia) ltac:(lia)).
    unfold arrives_in. lia.
  Qed.

  (** If the demand in a window of length d fits, there is a quiet time soon
      after every quiet time. *)
  Lemma next_quiet : forall t1 d, quietb t1 = true -> (0 < d)%nat ->
    b i + hp_demand (Z.of_nat d) +
      pr_cost (prm i) * own_count (Z.of_nat t1 - pr_jitter (prm i)) (Z.of_nat (t1 + d)) <= Z.of_nat d ->
    exists q, (t1 < q <= t1 + d)%nat /\ quietb q = true.
  Proof.
    intros t1 d Hq Hd Hdem.
    destruct (existsb quietb (seq (S t1) d)) eqn:E.
    { apply existsb_exists in E. destruct E as [q [Hin Hqq]]. apply in_seq in Hin. exists q. split; [lia|assumption]. }
    exfalso.
    assert (Hno : forall q, (t1 < q <= t1 + d)%nat -> quietb q = false).
    { intros q Hr. apply not_true_is_false. intro F.
      assert (existsb quietb (seq (S t1) d) = true); [|congruence].
      apply existsb_exists. exists q. split; [apply in_seq; lia|assumption]. }
    apply quietb_true in Hq.
    assert (Hlost : lost sc target t1 (t1 + d) <= b i).
    { apply (Hpolicy target); [simpl; lia|lia|]. intros t Ht.
      destruct (quietb_false (S t) (Hno (S t) ltac:(lia))) as [h [k [Hh [Hr Hs]]]].
      exists (h, k). split; [exact Hh|]. unfold pending. simpl. split; [lia|].
      rewrite service_step in Hs. pose proof (b2z_range (runs sc (h, k) t)). lia. }
    unfold lost in Hlost. replace (t1 + d - t1)%nat with d in Hlost by lia.
    assert (Hsum : sumf (fun u => b2z (servesP sc hepT (t1 + u))) d =
                   Z.of_nat d - sumf (fun u => b2z (negb (serves sc target (t1 + u)))) d).
    { assert (sumf (fun u => b2z (servesP sc hepT (t1 + u)) + b2z (negb (serves sc target (t1 + u)))) d = Z.of_nat d).
      { rewrite (sumf_ext _ (fun _ => 1)).
        - rewrite sumf_const. lia.
        - intros u Hu. unfold servesP, serves, hepT. destruct (sc (t1 + u)%nat); [destruct (hep j target)|]; reflexivity. }
      rewrite sumf_add in H. lia. }
    set (K := (t1 + d + S k0)%nat).
    rewrite (serves_window sc hepT (S i) K) in Hsum.
    2:{ intros u Hu j Hj HP. pose proof (Hvalid _ _ Hj) as Hj'. destruct Hj' as [_ [Hrel _]]. destruct j as [h k].
        pose proof (hepT_le _ _ HP) as G. cbn [fst snd] in *.
        pose proof (rel_ge_index h k G). unfold K. lia. }
    destruct (quietb_false (t1 + d) (Hno (t1 + d)%nat ltac:(lia))) as [h1 [k1 [Hh1 [Hr1 Hs1]]]].
    pose proof (hepT_le _ _ Hh1) as Hle1.
    assert (Hstrict : sumf (fun h => sumf (fun k => if hepT (h, k) then service sc (h, k) (t1 + d) - service sc (h, k) t1 else 0) K) (S i) + 1
        <= sumf (fun h => sumf (fun k => if hepT (h, k) then pr_cost (prm h) * b2z (arrives_in t1 d h k) else 0) K) (S i)).
    { assert (Hone : sumf (fun h => sumf (fun k => if Nat.eqb h h1 && Nat.eqb k k1 then 1 else 0) K) (S i) = 1).
      { rewrite (sumf_single _ (S i) h1); [|lia|].
        - rewrite (sumf_single _ K k1).
          + rewrite !Nat.eqb_refl. reflexivity.
          + pose proof (rel_ge_index h1 k1 Hle1). unfold K. lia.
          + intros. rewrite (proj2 (Nat.eqb_neq k k1)) by assumption. rewrite andb_false_r. reflexivity.
        - intros. apply sumf_zero. intros. rewrite (proj2 (Nat.eqb_neq k h1)) by assumption. reflexivity. }
      rewrite <- Hone at 1. rewrite <- sumf_add. apply sumf_le. intros h Hh.
      rewrite <- sumf_add. apply sumf_le. intros k Hk.
      pose proof (service_le_cost _ _ _ Hvalid (h, k) (t1 + d)) as Hsc. cbn [fst snd] in Hsc.
      destruct (Nat.eqb_spec h h1); destruct (Nat.eqb_spec k k1); cbn [andb]; subst.
      - rewrite Hh1. apply window_job; try assumption; try lia.
        intros _. destruct (Nat.lt_ge_cases (rel s h1 k1) t1) as [G|]; [|lia]. exfalso.
        assert (Hcm : completed s sc (h1, k1) t1) by (apply Hq; assumption).
        unfold completed in Hcm. simpl in Hcm. pose proof (service_mono sc (h1, k1) t1 (t1 + d) ltac:(lia)). lia.
      - destruct (hepT (h1, k)) eqn:EP; [|lia]. apply window_job; try assumption; lia.
      - destruct (hepT (h, k1)) eqn:EP; [|lia]. apply window_job; try assumption; lia.
      - destruct (hepT (h, k)) eqn:EP; [|lia]. apply window_job; try assumption; lia. }
    cbn [sumf] in Hstrict.
    assert (Hhp : sumf (fun h => sumf (fun k => if hepT (h, k) then pr_cost (prm h) * b2z (arrives_in t1 d h k) else 0) K) i
                  <= hp_demand (Z.of_nat d)).
    { unfold hp_demand. apply sumf_le. intros h Hh. pose proof (prm_pos h ltac:(lia)) as [_ [HC _]].
      rewrite (sumf_ext _ (fun k => pr_cost (prm h) * b2z (arrives_in t1 d h k))).
      - rewrite sumf_mul. pose proof (count_hp t1 d h K ltac:(lia)). nia.
      - intros k Hk. assert (hepT (h, k) = true) as ->; [|reflexivity]. apply hep_iff. simpl. lia. }
    assert (Hown : sumf (fun k => if hepT (i, k) then pr_cost (prm i) * b2z (arrives_in t1 d i k) else 0) K
                  = pr_cost (prm i) * own_count (Z.of_nat t1 - pr_jitter (prm i)) (Z.of_nat (t1 + d))).
    { unfold own_count. rewrite <- sumf_mul. unfold K. replace (t1 + d + S k0)%nat with (S k0 + (t1 + d))%nat by lia.
      rewrite sumf_split. rewrite (sumf_zero (fun k => if hepT (i, (S k0 + k)%nat) then _ else _)).
      - rewrite Z.add_0_r. apply sumf_ext. intros k Hk. assert (hepT (i, k) = true) as ->; [|reflexivity].
        apply hep_iff. simpl. lia.
      - intros k Hk. destruct (hepT (i, (S k0 + k)%nat)) eqn:F; [|reflexivity]. apply hep_iff in F. simpl in F. lia. }
    cbn [sumf] in Hsum. lia.
  Qed.

  Lemma separated_span : forall (f : nat -> nat) T, 0 < T ->
    (forall k, Z.of_nat (f k) + T <= Z.of_nat (f (S k))) -> forall a e K,
    1 <= sumf (fun k => b2z ((a <=? Z.of_nat (f k)) && (Z.of_nat (f k) <? e))) (S K) ->
    a + (sumf (fun k => b2z ((a <=? Z.of_nat (f k)) && (Z.of_nat (f k) <? e))) (S K) - 1) * T <= Z.of_nat (f K).
  Proof.
    intros f T HT Hf a e. induction K as [|K IH]; intros H.
    - cbn [sumf] in *. destruct ((a <=? Z.of_nat (f 0%nat)) && (Z.of_nat (f 0%nat) <? e)) eqn:E; cbn [b2z] in *; [|lia].
      apply andb_prop in E. destruct E as [E _]. apply Z.leb_le in E. lia.
    - set (g := fun k => b2z ((a <=? Z.of_nat (f k)) && (Z.of_nat (f k) <? e))) in *.
      change (sumf g (S (S K))) with (sumf g (S K) + g (S K)) in *.
      destruct (Z.le_gt_cases 1 (sumf g (S K))) as [G|G].
      + specialize (IH G). specialize (Hf K).
        assert (0 <= g (S K) <= 1) by apply b2z_range. nia.
      + assert (Hn : 0 <= sumf g (S K)) by (apply sumf_nonneg; intros; apply b2z_range).
        assert (Hg : g (S K) = 1) by (pose proof (b2z_range ((a <=? Z.of_nat (f (S K))) && (Z.of_nat (f (S K)) <? e))); fold (g (S K)) in H0; lia).
        replace (sumf g (S K)) with 0 by lia. rewrite Hg. unfold g in Hg.
        destruct ((a <=? Z.of_nat (f (S K))) && (Z.of_nat (f (S K)) <? e)) eqn:E; [|discriminate].
        apply andb_prop in E. destruct E as [E _]. apply Z.leb_le in E. lia.
  Qed.

  Lemma hp_demand_subadd : forall (a : nat) d, (1 <= a)%nat -> 0 <= d ->
    hp_demand (Z.of_nat a * d) <= Z.of_nat a * hp_demand d.
  Proof.
    intros a d Ha Hd. unfold hp_demand. rewrite <- sumf_mul. apply sumf_le. intros h Hh.
    destruct (prm_pos h ltac:(lia)) as [HT [HC HJ]].
    assert (cdiv (Z.of_nat a * d + pr_jitter (prm h)) (pr_period (prm h)) <=
            Z.of_nat a * cdiv (d + pr_jitter (prm h)) (pr_period (prm h))); [|nia].
    apply cdiv_le_iff; [lia|].
    pose proof (proj1 (cdiv_le_iff (d + pr_jitter (prm h)) (pr_period (prm h)) (cdiv (d + pr_jitter (prm h)) (pr_period (prm h))) ltac:(lia)) ltac:(lia)).
    nia.
  Qed.

  (** The target completes within [d] plus its jitter of its arrival. *)
  Lemma response_within : forall d, (0 < d)%nat -> 0 <= b i ->
    Z.of_nat d <= pr_period (prm i) ->
    b i + pr_cost (prm i) + hp_demand (Z.of_nat d) <= Z.of_nat d ->
    exists q, Z.of_nat q <= Z.of_nat (arr s i k0) + Z.of_nat d + pr_jitter (prm i) /\ completed s sc (i, k0) q.
  Proof.
    intros d Hd Hb HdT Hdem. destruct (last_quiet (rel s i k0)) as [t1 [H1 [H2 H3]]].
    destruct (prm_pos i ltac:(lia)) as [HT [HC HJ]]. pose proof (prm_some i ltac:(lia)) as Hp.
    destruct (Hlegal _ _ Hp k0) as [_ [Har [Hrj Hc]]].
    set (A := Z.of_nat t1 - pr_jitter (prm i)).
    (* number of own jobs from the window start up to the target *)
    set (a := own_count A (Z.of_nat (arr s i k0) + 1)).
    assert (Ha1 : 1 <= a).
    { unfold a, own_count. cbn [sumf].
      assert ((A <=? Z.of_nat (arr s i k0)) && (Z.of_nat (arr s i k0) <? Z.of_nat (arr s i k0) + 1) = true) as ->.
      { rewrite (proj2 (Z.leb_le _ _)) by (unfold A; lia). rewrite (proj2 (Z.ltb_lt _ _)) by lia. reflexivity. }
      cbn [b2z]. assert (0 <= sumf (fun k => b2z ((A <=? Z.of_nat (arr s i k)) && (Z.of_nat (arr s i k) <? Z.of_nat (arr s i k0) + 1))) k0); [|lia].
      apply sumf_nonneg. intros. apply b2z_range. }
    assert (Hspan : A + (a - 1) * pr_period (prm i) <= Z.of_nat (arr s i k0)).
    { apply separated_span with (e := Z.of_nat (arr s i k0) + 1); [lia| |exact Ha1]. intros k. apply (Hlegal _ _ Hp k). }
    assert (Hcount : forall e, own_count A e <= a).
    { intros e. unfold a, own_count. apply sumf_le. intros k Hk.
      assert (Hmono : Z.of_nat (arr s i k) <= Z.of_nat (arr s i k0)).
      { assert (Hm : forall n m, (n <= m)%nat -> Z.of_nat (arr s i n) <= Z.of_nat (arr s i m)).
        { intros n m Hnm. induction Hnm; [lia|]. pose proof (proj1 (Hlegal _ _ Hp m)). lia. }
        apply Hm. lia. }
      rewrite (proj2 (Z.ltb_lt (Z.of_nat (arr s i k)) (Z.of_nat (arr s i k0) + 1))) by lia.
      destruct (A <=? Z.of_nat (arr s i k)); destruct (Z.of_nat (arr s i k) <? e); cbn; lia. }
    set (an := Z.to_nat a).
    assert (Han : Z.of_nat an = a) by (unfold an; lia).
    destruct (next_quiet t1 (an * d)%nat H2) as [q [Hq1 Hq2]].
    - assert (1 <= an)%nat by lia. nia.
    - rewrite Nat2Z.inj_mul, Han.
      pose proof (hp_demand_subadd an (Z.of_nat d) ltac:(lia) ltac:(lia)) as Hsub. rewrite Han in Hsub.
      specialize (Hcount (Z.of_nat (t1 + an * d))). fold A.
      assert (b i <= a * b i) by nia.
      assert (pr_cost (prm i) * own_count A (Z.of_nat (t1 + an * d)) <= a * pr_cost (prm i)) by nia.
      nia.
    - exists q. split.
      + assert (Z.of_nat q <= Z.of_nat t1 + a * Z.of_nat d) by nia.
        unfold A in Hspan. nia.
      + apply (quietb_true q Hq2); [apply hep_refl|].
        destruct (Nat.lt_ge_cases (rel s i k0) q); [assumption|]. specialize (H3 q ltac:(lia)). congruence.
  Qed.
End BusyWindow.

(** The textbook policy has no priority inversion, and conversely. *)
Lemma strict_policy : forall n s sc, fp_strict n s sc -> fp_policy n s sc (fun _ => 0).
Proof.
  intros n s sc H j t1 t2 Hj Ht Hp. unfold lost. rewrite sumf_zero; [lia|]. intros d Hd.
  destruct (Hp (t1 + d)%nat ltac:(lia)) as [j' [Hh Hpend]]. apply hep_iff in Hh as Hh'.
  destruct (H _ j' ltac:(lia) Hpend) as [j2 [E Hj2]].
  unfold serves. rewrite E. assert (hep j2 j = true) as ->; [|reflexivity].
  apply hep_iff. apply hep_iff in Hj2. lia.
Qed.

Lemma policy_strict : forall n s sc, fp_policy n s sc (fun _ => 0) -> fp_strict n s sc.
Proof.
  intros n s sc H t j Hj Hp. specialize (H j t (S t) Hj ltac:(lia)).
  unfold lost in H. replace (S t - t)%nat with 1%nat in H by lia. cbn [sumf] in H.
  rewrite Nat.add_0_r in H. unfold serves in H.
  assert (H' : 0 + b2z (negb match sc t with Some j' => hep j' j | None => false end) <= 0).
  { apply H. intros t' Ht'. exists j. split; [apply hep_refl|]. replace t' with t by lia. assumption. }
  destruct (sc t) as [j'|]; cbn in H'; [|lia]. exists j'. split; [reflexivity|].
  destruct (hep j' j); [reflexivity|cbn in H'; lia].
Qed.
