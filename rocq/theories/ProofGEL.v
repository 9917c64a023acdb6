(** Global scheduling by priority points: the compliant-vector response-time
    bound of Erickson and Anderson, in unit time slots, for jobs that run for
    their full cost.  All quantities are integers: rates are scaled by [P]. *)
From Coq Require Import ZArith List Bool Lia.
From Verif Require Import Base SpecUni SpecQPA SpecGlobal ProofUni ProofGlobal.
Import ListNotations.
Open Scope Z_scope.

Lemma sumf_at_most_one : forall (f : nat -> bool) n,
  (forall a b, (a < n)%nat -> (b < n)%nat -> f a = true -> f b = true -> a = b) ->
  sumf (fun k => b2z (f k)) n = b2z (existsb f (seq 0 n)).
Proof.
  induction n; intros H; [reflexivity|]. cbn [sumf]. rewrite IHn by (intros; apply H; lia || assumption).
  rewrite seq_S, existsb_app. cbn [existsb]. rewrite Nat.add_0_l, orb_false_r.
  destruct (f n) eqn:gE; [|rewrite orb_false_r; cbn; lia]. rewrite orb_true_r.
  destruct (existsb f (seq 0 n)) eqn:gE'; [|reflexivity]. exfalso.
  apply existsb_exists in gE'. destruct gE' as [a [Ha Ea]]. apply in_seq in Ha. specialize (H a n ltac:(lia) ltac:(lia) Ea gE). lia.
Qed.

Definition clamp (T x : Z) : Z := Z.max 0 (Z.min T x).

Lemma clamp_step : forall T x, 0 <= T -> clamp T (x + 1) - clamp T x = b2z ((0 <=? x) && (x <? T)).
Proof. intros. unfold clamp. destruct (Z.leb_spec 0 x), (Z.ltb_spec x T); cbn [andb b2z]; lia. Qed.

Section Windows.
  Variables (a : nat -> Z) (T : Z).
  Hypothesis HT : 0 <= T.
  Hypothesis Hsep : forall k, a k + T <= a (S k).

  Lemma a_sep : forall d k, (0 < d)%nat -> a k + T <= a (k + d)%nat.
  Proof.
    induction d; intros k Hd; [lia|]. rewrite Nat.add_succ_r. specialize (Hsep (k + d)).
    destruct d; [rewrite Nat.add_0_r in *; lia|]. specialize (IHd k ltac:(lia)). lia.
  Qed.

  Lemma windows_step : forall N t, sumf (fun k => clamp T (t + 1 - a k)) N <= sumf (fun k => clamp T (t - a k)) N + 1.
  Proof.
    intros N t. rewrite (sumf_ext _ (fun k => clamp T (t - a k) + b2z ((0 <=? t - a k) && (t - a k <? T)))).
    - rewrite sumf_add. rewrite sumf_at_most_one; [pose proof (b2z_range (existsb (fun k => (0 <=? t - a k) && (t - a k <? T)) (seq 0 N))); lia|].
      assert (G : forall x y, (x < y)%nat -> (0 <=? t - a x) && (t - a x <? T) = true -> (0 <=? t - a y) && (t - a y <? T) = true -> False).
      { intros x y L H1 H2. apply andb_prop in H1, H2. destruct H1 as [H1 H1'], H2 as [H2 H2'].
        apply Z.leb_le in H1, H2. apply Z.ltb_lt in H1', H2'. pose proof (a_sep (y - x) x ltac:(lia)).
        replace (x + (y - x))%nat with y in * by lia. lia. }
      intros x y _ _ H1 H2. destruct (Nat.lt_trichotomy x y) as [L|[L|L]]; [|assumption|]; exfalso; eauto.
    - intros k _. pose proof (clamp_step T (t - a k) HT). replace (t + 1 - a k) with (t - a k + 1) by lia. lia.
  Qed.

  Lemma windows_from : forall N t, sumf (fun k => clamp T (t - a k)) N <= Z.max 0 (t - a O).
  Proof.
    intros N t. destruct (Z.le_gt_cases t (a O)) as [L|L].
    - rewrite sumf_zero; [lia|]. intros k _. unfold clamp. destruct k; [lia|]. pose proof (a_sep (S k) O ltac:(lia)). cbn [Nat.add] in *. lia.
    - enough (G : forall d, sumf (fun k => clamp T (a O + Z.of_nat d - a k)) N <= Z.of_nat d).
      { specialize (G (Z.to_nat (t - a O))). rewrite Z2Nat.id in G by lia. replace (a O + (t - a O)) with t in G by lia. lia. }
      induction d.
      + rewrite sumf_zero; [lia|]. intros k _. unfold clamp. destruct k; [lia|]. pose proof (a_sep (S k) O ltac:(lia)). cbn [Nat.add] in *. lia.
      + pose proof (windows_step N (a O + Z.of_nat d)) as gW. replace (a O + Z.of_nat (S d)) with (a O + Z.of_nat d + 1) by lia. lia.
  Qed.
End Windows.

Section GEL.
  Variables (n m K : nat) (s : jobseq) (sc : gschedule).
  Variables (C T Y X p : nat -> Z) (P : Z).
  Hypothesis HP : 0 < P.
  Hypothesis Hpar : forall i, (i < n)%nat -> 0 <= C i <= T i /\ 1 <= T i /\ 0 <= Y i /\ p i * T i = P * C i.
  Hypothesis HU : sumf p n <= P * Z.of_nat (S K).
  Hypothesis HK : (S K <= m)%nat.
  Hypothesis HX : (1 <= K)%nat -> forall i, (i < n)%nat -> 0 <= X i.
  Let mu i := Z.min (Y i) (T i).
  Let off i := Z.max 0 (Y i - T i).
  Let total_S := sumf (fun j => P * C j - p j * mu j) n.
  Hypothesis Hcomp : forall i A, (i < n)%nat -> NoDup A -> (forall j, In j A -> (j < n)%nat) -> (length A <= K)%nat ->
    zsum (map (fun j => p j * (mu j + X j)) A) + total_S < P * (Z.of_nat m * (X i + 1) + C i).
  Hypothesis Hleg : forall i, (i < n)%nat -> forall k, Z.of_nat (arr s i k) + T i <= Z.of_nat (arr s i (S k)) /\
    rel s i k = arr s i k /\ Z.of_nat (cst s i k) = C i.
  Hypothesis Hv : gvalid n m s sc.
  Hypothesis Hpol : forall t j, (fst j < n)%nat -> gready s sc j t -> ~ In j (sc t) ->
    length (sc t) = m /\ forall j', In j' (sc t) ->
      Z.of_nat (arr s (fst j') (snd j')) + Y (fst j') <= Z.of_nat (arr s (fst j) (snd j)) + Y (fst j).

  Definition in_time (j : job) : Prop :=
    exists q, Z.of_nat q <= Z.of_nat (arr s (fst j) (snd j)) + Y (fst j) + X (fst j) + C (fst j) /\ gcompleted s sc j q.

  Lemma p_bounds : forall i, (i < n)%nat -> 0 <= p i <= P.
  Proof. intros i Hi. destruct (Hpar i Hi) as [H1 [H2 [_ H3]]]. split; nia. Qed.

  Lemma arr_mono : forall i, (i < n)%nat -> forall d k, (0 < d)%nat -> Z.of_nat (arr s i k) + T i <= Z.of_nat (arr s i (k + d)%nat).
  Proof.
    intros i Hi d k. apply (a_sep (fun k => Z.of_nat (arr s i k)) (T i)).
    - pose proof (Hpar i Hi). lia.
    - intros k'. apply Hleg; assumption.
  Qed.

  (** Jobs with priority points up to [td]: the first [N i] of each task. *)
  Section Td.
    Variables (td : nat) (N : nat -> nat).
    Hypothesis HN : forall i, (i < n)%nat -> forall k, (k < N i)%nat <-> Z.of_nat (arr s i k) + Y i <= Z.of_nat td.
    Hypothesis IH : forall j, (fst j < n)%nat -> Z.of_nat (arr s (fst j) (snd j)) + Y (fst j) < Z.of_nat td -> in_time j.

    Definition gact i t := sumf (fun k => gservice sc (i, k) t) (N i).
    Definition gpsi i t := existsb (fun k => gruns sc (i, k) t) (seq 0 (N i)).
    Definition gE t := sumf (fun i => b2z (gpsi i t)) n.
    Definition gW t := sumf (fun i => Z.of_nat (N i) * C i - gact i t) n.
    Definition gideal i t := p i * sumf (fun k => clamp (T i) (Z.of_nat t - (Z.of_nat (arr s i k) + off i))) (N i).
    Definition glag i t := gideal i t - P * gact i t.

    Lemma psi_iff : forall i t, gpsi i t = true <-> exists k, (k < N i)%nat /\ gruns sc (i, k) t = true.
    Proof.
      intros. unfold gpsi. rewrite existsb_exists. split; intros [k [H1 H2]]; exists k; (split; [|exact H2]).
      - apply in_seq in H1. lia.
      - apply in_seq. lia.
    Qed.

    Lemma act_step : forall i t, gact i (S t) = gact i t + b2z (gpsi i t).
    Proof.
      intros. unfold gact, gpsi. rewrite <- sumf_at_most_one.
      - rewrite <- sumf_add. apply sumf_ext. intros k _. apply gservice_step.
      - intros a b _ _ H1 H2. eapply one_per_task; eassumption.
    Qed.

    Lemma W_step : forall t, gW (S t) = gW t - gE t.
    Proof.
      intros. unfold gW, gE. enough (sumf (fun i => Z.of_nat (N i) * C i - gact i t) n =
        sumf (fun i => Z.of_nat (N i) * C i - gact i (S t) + b2z (gpsi i t)) n) as G; [rewrite sumf_add in G; lia|].
      apply sumf_ext. intros i _. rewrite act_step. lia.
    Qed.

    Lemma serv_le : forall i k t, (i < n)%nat -> 0 <= gservice sc (i, k) t <= C i.
    Proof.
      intros i k t Hi. split; [apply gservice_nonneg|]. pose proof (gservice_le_cost n m s sc Hv (i, k) t) as H. cbn [fst snd] in H.
      destruct (Hleg i Hi k) as [_ [_ Hc]]. lia.
    Qed.

    Lemma act_le : forall i t, (i < n)%nat -> gact i t <= Z.of_nat (N i) * C i.
    Proof.
      intros i t Hi. unfold gact. apply Z.le_trans with (sumf (fun _ => C i) (N i)).
      - apply sumf_le. intros k _. apply serv_le; assumption.
      - rewrite sumf_const. lia.
    Qed.

    Lemma W_nonneg : forall t, 0 <= gW t.
    Proof. intros. unfold gW. apply sumf_nonneg. intros i Hi. pose proof (act_le i t Hi). lia. Qed.

    Lemma psi_trun : forall i t, gpsi i t = true -> trun sc i t = true.
    Proof. intros i t H. apply psi_iff in H. destruct H as [k [_ H]]. apply trun_iff. exists k. exact H. Qed.

    Lemma E_le : forall t, 0 <= gE t <= Z.of_nat m.
    Proof.
      intros t. split.
      - apply sumf_nonneg. intros. apply b2z_range.
      - destruct (Hv t) as [H _]. pose proof (busy_count n m s sc Hv t) as G.
        enough (gE t <= sumf (fun i => b2z (trun sc i t)) n) by lia. apply sumf_le. intros i _.
        destruct (gpsi i t) eqn:Ep; [rewrite (psi_trun i t Ep); lia|]. cbn. apply b2z_range.
    Qed.

    (** A waiting job keeps all processors busy with jobs up to [td]. *)
    Lemma waiting : forall i k t, (i < n)%nat -> (k < N i)%nat -> gready s sc (i, k) t -> gruns sc (i, k) t = false -> gE t = Z.of_nat m.
    Proof.
      intros i k t Hi Hk Hr Hn. destruct (Hpol t (i, k) Hi Hr) as [H1 H2].
      { intros X0. apply gruns_iff in X0. congruence. }
      rewrite <- H1, (busy_count n m s sc Hv t). apply sumf_ext. intros i' Hi'. f_equal.
      destruct (trun sc i' t) eqn:Et.
      - apply trun_iff in Et. destruct Et as [h Hh]. apply psi_iff. exists h. split; [|exact Hh].
        apply HN; [assumption|]. apply gruns_iff in Hh. specialize (H2 _ Hh). cbn [fst snd] in H2.
        apply HN in Hk; [|assumption]. lia.
      - destruct (gpsi i' t) eqn:Ep; [|reflexivity]. apply psi_trun in Ep. congruence.
    Qed.

    Lemma ready_or_done : forall i t k, (i < n)%nat -> (k < N i)%nat -> (arr s i k <= t)%nat -> ~ gcompleted s sc (i, k) t ->
      exists h, (h <= k)%nat /\ gready s sc (i, h) t.
    Proof.
      intros i t. induction k as [k IHk] using lt_wf_ind. intros Hi Hk Ha Hc.
      destruct (forallb (fun h => C i <=? gservice sc (i, h) t) (seq 0 k)) eqn:Ef.
      - exists k. split; [lia|]. destruct (Hleg i Hi k) as [_ [Hr Hcost]]. split; [cbn [fst snd]; lia|].
        split; [unfold gcompleted in Hc; lia|].
        intros h Hh. cbn [fst snd] in *. unfold gcompleted. cbn [fst snd]. destruct (Hleg i Hi h) as [_ [_ Hch]]. rewrite Hch.
        rewrite forallb_forall in Ef. specialize (Ef h). apply Z.leb_le. apply Ef. apply in_seq. lia.
      - apply not_true_iff_false in Ef. rewrite forallb_forall in Ef.
        assert (exists h, (h < k)%nat /\ gservice sc (i, h) t < C i) as [h [Hh Hs]].
        { clear - Ef. induction k.
          - exfalso. apply Ef. intros x Hx. destruct Hx.
          - destruct (Z.leb_spec (C i) (gservice sc (i, k) t)) as [L|L]; [|exists k; split; [lia|assumption]].
            destruct IHk as [h [Hh Hs]]; [|exists h; split; [lia|assumption]].
            intros Hall. apply Ef. intros x Hx. apply in_seq in Hx. destruct (Nat.eq_dec x k) as [->|Nx]; [apply Z.leb_le; exact L|].
            apply Hall. apply in_seq. lia. }
        destruct (IHk h Hh Hi) as [h' [Hh' Hr]]; [lia| | |].
        + pose proof (arr_mono i Hi (k - h) h ltac:(lia)) as G. replace (h + (k - h))%nat with k in G by lia. pose proof (Hpar i Hi). lia.
        + unfold gcompleted. cbn [fst snd]. destruct (Hleg i Hi h) as [_ [_ Hch]]. lia.
        + exists h'. split; [lia|assumption].
    Qed.

    (** No backlog, no lag. *)
    Lemma lag_caught_up : forall i t, (i < n)%nat ->
      (forall k, (k < N i)%nat -> (arr s i k < t)%nat -> gcompleted s sc (i, k) t) -> glag i t <= 0.
    Proof.
      intros i t Hi H. unfold glag, gideal, gact. destruct (Hpar i Hi) as [H1 [H2 [H3 H4]]]. pose proof (p_bounds i Hi) as Hp.
      rewrite <- !sumf_mul. enough (sumf (fun k => p i * clamp (T i) (Z.of_nat t - (Z.of_nat (arr s i k) + off i))) (N i)
        <= sumf (fun k => P * gservice sc (i, k) t) (N i)) by lia.
      apply sumf_le. intros k Hk. destruct (Nat.lt_ge_cases (arr s i k) t) as [L|L].
      - specialize (H k Hk L). unfold gcompleted in H. cbn [fst snd] in H. destruct (Hleg i Hi k) as [_ [_ Hc]].
        apply Z.le_trans with (p i * T i); [|nia]. unfold clamp. nia.
      - unfold clamp. replace (Z.max 0 _) with 0 by (unfold off; lia). pose proof (gservice_nonneg sc (i, k) t). nia.
    Qed.

    (** A backlogged task that obeys the induction hypothesis has bounded lag. *)
    Lemma lag_backlog : forall i t h, (i < n)%nat -> (t <= td)%nat -> 0 <= X i -> (h < N i)%nat ->
      (forall k, (k < h)%nat -> gcompleted s sc (i, k) t) -> ~ gcompleted s sc (i, h) t ->
      glag i t <= p i * (mu i + X i).
    Proof.
      intros i t h Hi Ht Hx Hh Hdone Hinc. destruct (Hpar i Hi) as [H1 [H2 [H3 H4]]]. pose proof (p_bounds i Hi) as Hp.
      set (dl := Z.of_nat t - Z.of_nat (arr s i h)).
      assert (I : gideal i t <= p i * (Z.of_nat h * T i) + p i * Z.max 0 (dl - off i)).
      { unfold gideal. replace (N i) with (h + (N i - h))%nat by lia. rewrite sumf_split.
        assert (sumf (fun k => clamp (T i) (Z.of_nat t - (Z.of_nat (arr s i k) + off i))) h <= Z.of_nat h * T i).
        { apply Z.le_trans with (sumf (fun _ => T i) h); [|rewrite sumf_const; lia]. apply sumf_le. intros k _. unfold clamp. lia. }
        pose proof (windows_from (fun k => Z.of_nat (arr s i (h + k)) + off i) (T i) ltac:(lia)
          ltac:(intros k; destruct (Hleg i Hi (h + k)) as [Ha _]; rewrite Nat.add_succ_r; lia) (N i - h) (Z.of_nat t)) as Wf.
        cbv beta in Wf. rewrite Nat.add_0_r in Wf. unfold dl.
        replace (Z.of_nat t - (Z.of_nat (arr s i h) + off i)) with (Z.of_nat t - Z.of_nat (arr s i h) - off i) in Wf by lia. nia. }
      assert (Ac : Z.of_nat h * C i + gservice sc (i, h) t <= gact i t).
      { unfold gact. replace (N i) with (h + S (N i - h - 1))%nat by lia. rewrite sumf_split.
        assert (Z.of_nat h * C i <= sumf (fun k => gservice sc (i, k) t) h).
        { apply Z.le_trans with (sumf (fun _ => C i) h); [rewrite sumf_const; lia|]. apply sumf_le. intros k Hk.
          specialize (Hdone k Hk). unfold gcompleted in Hdone. cbn [fst snd] in Hdone. destruct (Hleg i Hi k) as [_ [_ Hc]]. lia. }
        pose proof (sumf_term_le (fun k => gservice sc (i, (h + k)%nat) t) (S (N i - h - 1)) O ltac:(lia)
          ltac:(intros; apply gservice_nonneg)) as Tl. cbv beta in Tl. rewrite Nat.add_0_r in Tl. lia. }
      assert (Sv : dl - Y i - X i <= gservice sc (i, h) t /\ 0 <= gservice sc (i, h) t).
      { split; [|apply gservice_nonneg]. destruct (Z.le_gt_cases dl (Y i + X i)) as [L|L]; [pose proof (gservice_nonneg sc (i, h) t); lia|].
        destruct (IH (i, h)) as [q [Hq Hc]]; [assumption|unfold dl in L; cbn [fst snd]; lia|]. cbn [fst snd] in Hq.
        destruct (Nat.le_gt_cases q t) as [Lq|Lq]; [exfalso; apply Hinc; eapply gcompleted_mono; eassumption|].
        unfold gcompleted in Hc. cbn [fst snd] in Hc. destruct (Hleg i Hi h) as [_ [_ Hch]].
        replace q with (t + (q - t))%nat in Hc by lia.
        assert (Gd : forall d, gservice sc (i, h) (t + d) <= gservice sc (i, h) t + Z.of_nat d).
        { induction d; [rewrite Nat.add_0_r; lia|]. rewrite Nat.add_succ_r, gservice_step. pose proof (b2z_range (gruns sc (i, h) (t + d))). lia. }
        specialize (Gd (q - t)%nat). unfold dl in *. lia. }
      unfold glag. unfold mu, off in *. assert (p i * Z.max 0 (dl - Z.max 0 (Y i - T i)) <= p i * (Z.min (Y i) (T i) + X i) + P * gservice sc (i, h) t).
      { destruct Sv as [S1 S2]. destruct (Z.le_gt_cases dl (Y i + X i)) as [L|L].
        - assert (Z.max 0 (dl - Z.max 0 (Y i - T i)) <= Z.min (Y i) (T i) + X i) by lia. nia.
        - assert (Z.max 0 (dl - Z.max 0 (Y i - T i)) <= Z.min (Y i) (T i) + X i + (dl - Y i - X i)) by lia. nia. }
      nia.
    Qed.

    Lemma ideal_step : forall i t, (i < n)%nat -> gideal i (S t) <= gideal i t + p i.
    Proof.
      intros i t Hi. unfold gideal. destruct (Hpar i Hi) as [H1 [H2 [H3 H4]]]. pose proof (p_bounds i Hi) as Hp.
      pose proof (windows_step (fun k => Z.of_nat (arr s i k) + off i) (T i) ltac:(lia)
        ltac:(intros k; destruct (Hleg i Hi k) as [Ha _]; lia) (N i) (Z.of_nat t)) as Ws. cbv beta in Ws.
      replace (Z.of_nat (S t)) with (Z.of_nat t + 1) by lia. nia.
    Qed.

    Lemma psi_list : forall t, Z.of_nat (length (filter (fun i => gpsi i t) (seq 0 n))) = gE t.
    Proof.
      intros t. unfold gE. rewrite sumf_seq. generalize (seq 0 n). induction l as [|x l IHl]; [reflexivity|].
      cbn [filter map zsum]. destruct (gpsi x t); cbn [length b2z]; lia.
    Qed.

    Lemma sumf_le_list : forall (f g : nat -> Z) (q : nat -> bool) k,
      (forall i, (i < k)%nat -> if q i then f i <= g i else f i <= 0) ->
      sumf f k <= zsum (map g (filter q (seq 0 k))).
    Proof.
      intros f g q. induction k; intros H; [reflexivity|]. cbn [sumf]. rewrite seq_S, filter_app, map_app, zsum_app.
      cbn [filter Nat.add]. specialize (IHk ltac:(intros; apply H; lia)). specialize (H k ltac:(lia)).
      destruct (q k); cbn [map zsum]; lia.
    Qed.

    Lemma lag_bound : forall t, (t <= td)%nat -> exists A, NoDup A /\ (forall j, In j A -> (j < n)%nat) /\ (length A <= K)%nat /\
      sumf (fun i => glag i t) n <= zsum (map (fun j => p j * (mu j + X j)) A).
    Proof.
      induction t as [|t IHt]; intros Ht.
      - exists []. split; [constructor|]. split; [intros j []|]. split; [cbn; lia|]. cbn [map zsum].
        replace 0 with (sumf (fun _ => 0) n) by (rewrite sumf_const; lia). apply sumf_le. intros i Hi. apply lag_caught_up; [assumption|]. intros; lia.
      - destruct (Z.le_gt_cases (gE t) (Z.of_nat K)) as [L|L].
        + set (A := filter (fun i => gpsi i t) (seq 0 n)). exists A.
          assert (HA : (length A <= K)%nat) by (pose proof (psi_list t) as Gl; unfold A; lia).
          split; [apply NoDup_filter, seq_NoDup|]. split; [intros j Hj; apply filter_In in Hj; destruct Hj as [Hj _]; apply in_seq in Hj; lia|].
          split; [exact HA|]. apply sumf_le_list. intros i Hi. destruct (gpsi i t) eqn:Ep.
          * assert (HK1 : (1 <= K)%nat).
            { assert (In i A) by (apply filter_In; split; [apply in_seq; lia|assumption]). destruct A; [contradiction|]. cbn [length] in HA. lia. }
            pose proof (HX HK1 i Hi) as Hx. destruct (Hpar i Hi) as [H1 [H2 [H3 H4]]]. pose proof (p_bounds i Hi) as Hp.
            destruct (forallb (fun k => negb (Nat.leb (arr s i k) t) || (C i <=? gservice sc (i, k) (S t))) (seq 0 (N i))) eqn:Ef.
            -- assert (glag i (S t) <= 0); [|unfold mu; assert (0 <= p i * (Z.min (Y i) (T i) + X i)) by nia; lia]. apply lag_caught_up; [assumption|]. intros k Hk Ha.
               rewrite forallb_forall in Ef. specialize (Ef k ltac:(apply in_seq; lia)). apply orb_prop in Ef. destruct Ef as [Ef|Ef].
               ++ apply negb_true_iff in Ef. apply Nat.leb_gt in Ef. lia.
               ++ unfold gcompleted. cbn [fst snd]. destruct (Hleg i Hi k) as [_ [_ Hc]]. apply Z.leb_le in Ef. lia.
            -- assert (exists k, (k < N i)%nat /\ (arr s i k <= t)%nat /\ ~ gcompleted s sc (i, k) (S t)) as [k [Hk [Ha Hc]]].
               { apply not_true_iff_false in Ef. rewrite forallb_forall in Ef. clear - Ef Hleg Hi.
                 revert Ef. generalize (N i) as M. induction M; intros Ef.
                 - exfalso. apply Ef. intros x [].
                 - destruct (negb (Nat.leb (arr s i M) t) || (C i <=? gservice sc (i, M) (S t))) eqn:Em.
                   + destruct IHM as [k [Hk Hr]]; [|exists k; split; [lia|assumption]]. intros Hall. apply Ef. intros x Hx. apply in_seq in Hx.
                     destruct (Nat.eq_dec x M) as [->|Nx]; [exact Em|]. apply Hall. apply in_seq. lia.
                   + exists M. apply orb_false_iff in Em. destruct Em as [E1 E2]. apply negb_false_iff in E1. apply Nat.leb_le in E1. apply Z.leb_gt in E2.
                     split; [lia|]. split; [assumption|]. unfold gcompleted. cbn [fst snd]. destruct (Hleg i Hi M) as [_ [_ Hcc]]. lia. }
               destruct (ready_or_done i (S t) k Hi Hk ltac:(lia) Hc) as [h [Hh [_ [Hinc Hpred]]]].
               apply (lag_backlog i (S t) h); [assumption|assumption|assumption|lia| |].
               ++ intros k' Hk'. apply Hpred. exact Hk'.
               ++ unfold gcompleted. lia.
          * apply lag_caught_up; [assumption|]. intros k Hk Ha. eapply gcompleted_mono with (a := t); [lia|].
            destruct (Z.le_gt_cases (Z.of_nat (cst s i k)) (gservice sc (i, k) t)) as [Lc|Lc]; [exact Lc|]. exfalso.
            destruct (ready_or_done i t k Hi Hk ltac:(lia)) as [h [Hh Hr]]; [unfold gcompleted; cbn [fst snd]; lia|].
            destruct (gruns sc (i, h) t) eqn:Er.
            -- enough (gpsi i t = true) by congruence. apply psi_iff. exists h. split; [lia|assumption].
            -- pose proof (waiting i h t Hi ltac:(lia) Hr Er). lia.
        + destruct (IHt ltac:(lia)) as [A [A1 [A2 [A3 A4]]]]. exists A. split; [exact A1|]. split; [exact A2|]. split; [exact A3|].
          assert (sumf (fun i => glag i (S t)) n <= sumf (fun i => glag i t + (p i + - P * b2z (gpsi i t))) n) as G.
          { apply sumf_le. intros i Hi. unfold glag. rewrite act_step. pose proof (ideal_step i t Hi). lia. }
          rewrite !sumf_add, sumf_mul in G. fold (gE t) in G.
          assert (P * Z.of_nat (S K) <= P * gE t) by nia. lia.
    Qed.

    (** What the fluid schedule leaves undone at [td]. *)
    Lemma ideal_final : forall i, (i < n)%nat -> P * (Z.of_nat (N i) * C i) - gideal i td <= P * C i - p i * mu i.
    Proof.
      intros i Hi. destruct (Hpar i Hi) as [H1 [H2 [H3 H4]]]. pose proof (p_bounds i Hi) as Hp. unfold gideal.
      assert (0 <= mu i <= T i) by (unfold mu; lia).
      remember (N i) as M eqn:EM. destruct M as [|M].
      - cbn [sumf]. nia.
      - cbn [sumf].
        assert (G1 : mu i <= clamp (T i) (Z.of_nat td - (Z.of_nat (arr s i M) + off i))).
        { assert (Z.of_nat (arr s i M) + Y i <= Z.of_nat td) by (apply HN; [assumption|lia]). unfold clamp, mu, off in *. lia. }
        assert (G2 : Z.of_nat M * T i <= sumf (fun k => clamp (T i) (Z.of_nat td - (Z.of_nat (arr s i k) + off i))) M).
        { apply Z.le_trans with (sumf (fun _ => T i) M); [rewrite sumf_const; lia|]. apply sumf_le. intros k Hk.
          assert (Z.of_nat (arr s i (S k)) + Y i <= Z.of_nat td) by (apply HN; [assumption|lia]).
          destruct (Hleg i Hi k) as [Ha _]. unfold clamp, off. lia. }
        set (x := sumf _ M) in *. set (y := clamp _ _) in *.
        assert (p i * (Z.of_nat M * T i) = P * (Z.of_nat M * C i)) by (replace (p i * (Z.of_nat M * T i)) with (Z.of_nat M * (p i * T i)) by ring; rewrite H4; ring).
        replace (Z.of_nat (S M)) with (Z.of_nat M + 1) by lia. nia.
    Qed.

    Lemma W_td : forall i, (i < n)%nat -> gW td < Z.of_nat m * (X i + 1) + C i.
    Proof.
      intros i Hi. destruct (lag_bound td (le_n td)) as [A [A1 [A2 [A3 A4]]]]. specialize (Hcomp i A Hi A1 A2 A3).
      assert (P * gW td <= total_S + sumf (fun j => glag j td) n) as G.
      { unfold gW. rewrite <- sumf_mul. unfold total_S. rewrite <- sumf_add. apply sumf_le. intros j Hj. unfold glag.
        pose proof (ideal_final j Hj). lia. }
      nia.
    Qed.

    Lemma released : forall i k t, (i < n)%nat -> (k < N i)%nat -> (td <= t)%nat -> (arr s i k <= t)%nat.
    Proof. intros i k t Hi Hk Ht. apply HN in Hk; [|assumption]. pose proof (Hpar i Hi). lia. Qed.

    (** A task with unfinished jobs up to [td] after [td] has a ready one. *)
    Lemma unfinished_ready : forall i t, (i < n)%nat -> (td <= t)%nat -> gact i t < Z.of_nat (N i) * C i ->
      exists h, (h < N i)%nat /\ gready s sc (i, h) t.
    Proof.
      intros i t Hi Ht Hlt.
      assert (exists k, (k < N i)%nat /\ gservice sc (i, k) t < C i) as [k [Hk Hs]].
      { unfold gact in Hlt. clear - Hlt. revert Hlt. generalize (N i) as M. induction M; intros Hlt; [cbn in Hlt; lia|].
        cbn [sumf] in Hlt. destruct (Z.lt_ge_cases (gservice sc (i, M) t) (C i)); [exists M; split; [lia|assumption]|].
        destruct IHM as [k [Hk Hs]]; [nia|]. exists k. split; [lia|assumption]. }
      destruct (ready_or_done i t k Hi Hk) as [h [Hh Hr]].
      - apply released; assumption.
      - unfold gcompleted. cbn [fst snd]. destruct (Hleg i Hi k) as [_ [_ Hc]]. lia.
      - exists h. split; [lia|assumption].
    Qed.

    Definition gopen i t := gact i t <? Z.of_nat (N i) * C i.
    Definition gB t := sumf (fun i => b2z (gopen i t)) n.

    Lemma act_mono : forall i a b, (a <= b)%nat -> gact i a <= gact i b.
    Proof. intros i a b H. unfold gact. apply sumf_le. intros. apply gservice_mono. assumption. Qed.

    Lemma B_mono : forall a b, (a <= b)%nat -> gB b <= gB a.
    Proof.
      intros a b H. apply sumf_le. intros i _. unfold gopen. pose proof (act_mono i a b H).
      destruct (Z.ltb_spec (gact i a) (Z.of_nat (N i) * C i)), (Z.ltb_spec (gact i b) (Z.of_nat (N i) * C i)); cbn; lia.
    Qed.

    Lemma E_le_B : forall t, gE t <= gB t.
    Proof.
      intros t. apply sumf_le. intros i Hi. unfold gopen. destruct (gpsi i t) eqn:Ep; [|apply b2z_range].
      pose proof (act_step i t) as Hs. rewrite Ep in Hs. cbn [b2z] in Hs. pose proof (act_le i (S t) Hi).
      destruct (Z.ltb_spec (gact i t) (Z.of_nat (N i) * C i)); cbn; lia.
    Qed.

    Lemma B_le_E : forall t, (td <= t)%nat -> gE t <> Z.of_nat m -> gB t <= gE t.
    Proof.
      intros t Ht Hne. apply sumf_le. intros i Hi. unfold gopen. destruct (Z.ltb_spec (gact i t) (Z.of_nat (N i) * C i)) as [L|L]; [|apply b2z_range].
      destruct (unfinished_ready i t Hi Ht L) as [h [Hh Hr]]. destruct (gruns sc (i, h) t) eqn:Er.
      - replace (gpsi i t) with true; [cbn; lia|]. symmetry. apply psi_iff. exists h. split; assumption.
      - exfalso. apply Hne. apply (waiting i h t); assumption.
    Qed.

    (** The job under analysis. *)
    Variables (i0 k0 : nat).
    Hypothesis Hi0 : (i0 < n)%nat.
    Hypothesis Hk0 : Z.of_nat (arr s i0 k0) + Y i0 = Z.of_nat td.
    Hypothesis HW : gW td < Z.of_nat m * (X i0 + 1) + C i0.

    Lemma k0_in : (k0 < N i0)%nat.
    Proof. apply HN; [assumption|lia]. Qed.

    Lemma act_J : forall t, ~ gcompleted s sc (i0, k0) t -> gact i0 t < Z.of_nat (N i0) * C i0.
    Proof.
      intros t Hc. unfold gact. pose proof k0_in as Hk. replace (N i0) with (k0 + S (N i0 - k0 - 1))%nat by lia.
      rewrite sumf_split. cbn [sumf].
      assert (forall l a, sumf (fun k => gservice sc (i0, (a + k)%nat) t) l <= Z.of_nat l * C i0) as G.
      { intros l a. apply Z.le_trans with (sumf (fun _ => C i0) l); [|rewrite sumf_const; lia]. apply sumf_le. intros. apply serv_le. assumption. }
      pose proof (G k0 O) as G1. cbn [Nat.add] in G1.
      assert (sumf (fun k => gservice sc (i0, (k0 + k)%nat) t) (S (N i0 - k0 - 1)) < Z.of_nat (S (N i0 - k0 - 1)) * C i0) as G2.
      { generalize (N i0 - k0 - 1)%nat as l. induction l.
        - cbn [sumf]. rewrite Nat.add_0_r. unfold gcompleted in Hc. cbn [fst snd] in Hc. destruct (Hleg i0 Hi0 k0) as [_ [_ Hcc]]. lia.
        - cbn [sumf] in *. pose proof (serv_le i0 (k0 + S l)%nat t Hi0). lia. }
      cbn [sumf] in G2. lia.
    Qed.

    Lemma progress : forall t, (td <= t)%nat -> ~ gcompleted s sc (i0, k0) t -> 1 <= gE t.
    Proof.
      intros t Ht Hc. destruct (unfinished_ready i0 t Hi0 Ht (act_J t Hc)) as [h [Hh Hr]].
      destruct (gruns sc (i0, h) t) eqn:Er; [|rewrite (waiting i0 h t Hi0 Hh Hr Er); lia].
      assert (gpsi i0 t = true) as Ep by (apply psi_iff; exists h; split; assumption).
      unfold gE. pose proof (sumf_term_le (fun i => b2z (gpsi i t)) n i0 Hi0 ltac:(intros; apply b2z_range)) as G. cbv beta in G. rewrite Ep in G. cbn [b2z] in G. lia.
    Qed.

    Lemma finish_neg : X i0 < 0 -> in_time (i0, k0).
    Proof.
      intros Hx. pose proof HW as Hw. pose proof (W_nonneg td) as Hw0.
      assert (Hw1 : gW td <= X i0 + C i0) by nia.
      exists (td + Z.to_nat (X i0 + C i0))%nat. cbn [fst snd]. split; [lia|].
      set (d := Z.to_nat (X i0 + C i0)).
      destruct (Z.le_gt_cases (Z.of_nat (cst s i0 k0)) (gservice sc (i0, k0) (td + d))) as [L|L]; [exact L|exfalso].
      assert (Hinc : forall e, (e <= d)%nat -> ~ gcompleted s sc (i0, k0) (td + e)).
      { intros e He Hc. apply (gcompleted_mono s sc (i0, k0) (td + e) (td + d)) in Hc; [|lia]. unfold gcompleted in Hc. cbn [fst snd] in Hc. lia. }
      assert (G : forall e, (e <= d)%nat -> gW (td + e) <= gW td - Z.of_nat e).
      { induction e; intros He; [rewrite Nat.add_0_r; lia|]. rewrite Nat.add_succ_r, W_step.
        pose proof (progress (td + e) ltac:(lia) (Hinc e ltac:(lia))). specialize (IHe ltac:(lia)). lia. }
      specialize (G d ltac:(lia)). pose proof (act_J _ (Hinc d ltac:(lia))) as Ha.
      assert (gW (td + d) = 0 -> False).
      { intros Hz. unfold gW in Hz. pose proof (sumf_term_le (fun i => Z.of_nat (N i) * C i - gact i (td + d)) n i0 Hi0
          ltac:(intros i Hi; pose proof (act_le i (td + d) Hi); lia)) as Gt. cbv beta in Gt. lia. }
      pose proof (W_nonneg (td + d)). unfold d in *. lia.
    Qed.

    Lemma preds_done : 0 <= X i0 -> forall k, (k < k0)%nat -> gcompleted s sc (i0, k) (td + Z.to_nat (X i0)).
    Proof.
      intros Hx k Hk. pose proof (arr_mono i0 Hi0 (k0 - k) k ltac:(lia)) as Ha. replace (k + (k0 - k))%nat with k0 in Ha by lia.
      pose proof (Hpar i0 Hi0) as Hp. destruct (IH (i0, k)) as [q [Hq Hc]]; [assumption|cbn [fst snd]; lia|]. cbn [fst snd] in Hq.
      eapply gcompleted_mono; [|exact Hc]. lia.
    Qed.

    Lemma finish_pos : 0 <= X i0 -> in_time (i0, k0).
    Proof.
      intros Hx. pose proof (Hpar i0 Hi0) as Hp. set (t1 := (td + Z.to_nat (X i0))%nat). set (c := Z.to_nat (C i0)).
      exists (t1 + c)%nat. cbn [fst snd]. split; [unfold t1, c; lia|].
      destruct (Z.le_gt_cases (Z.of_nat (cst s i0 k0)) (gservice sc (i0, k0) (t1 + c))) as [L|L]; [exact L|exfalso].
      assert (Hinc : forall e, (e <= t1 + c)%nat -> ~ gcompleted s sc (i0, k0) e).
      { intros e He Hc. apply (gcompleted_mono s sc (i0, k0) e (t1 + c)) in Hc; [|lia]. unfold gcompleted in Hc. cbn [fst snd] in Hc. lia. }
      assert (Hready : forall e, (t1 <= e <= t1 + c)%nat -> gready s sc (i0, k0) e).
      { intros e He. destruct (Hleg i0 Hi0 k0) as [_ [Hr _]]. split; [cbn [fst snd]; rewrite Hr; unfold t1 in He; lia|]. split.
        - specialize (Hinc e ltac:(lia)). unfold gcompleted in Hinc. lia.
        - intros k Hk. cbn [fst snd] in *. eapply gcompleted_mono; [|apply preds_done; [assumption|exact Hk]]. unfold t1 in He. lia. }
      destruct (Hleg i0 Hi0 k0) as [_ [_ Hcc]].
      destruct (forallb (fun d => gE (td + d) =? Z.of_nat m) (seq 0 (Z.to_nat (X i0)))) eqn:Ef.
      - (* all processors busy until t1 *)
        rewrite forallb_forall in Ef.
        assert (G : forall d, (d <= Z.to_nat (X i0))%nat -> gW (td + d) = gW td - Z.of_nat m * Z.of_nat d).
        { induction d; intros Hd; [rewrite Nat.add_0_r; lia|]. rewrite Nat.add_succ_r, W_step, IHd by lia.
          specialize (Ef d ltac:(apply in_seq; lia)). apply Z.eqb_eq in Ef. lia. }
        specialize (G (Z.to_nat (X i0)) (le_n _)). fold t1 in G. rewrite Z2Nat.id in G by lia.
        pose proof HW as Hw.
        assert (Hw1 : gW t1 < Z.of_nat m + C i0) by lia. clear G Hw.
        (* others' remaining work *)
        set (V := fun t => gW t - (C i0 - gservice sc (i0, k0) t)).
        assert (HV0 : forall t, 0 <= V t).
        { intros t. unfold V. enough (C i0 - gservice sc (i0, k0) t <= gW t) by lia.
          apply Z.le_trans with (Z.of_nat (N i0) * C i0 - gact i0 t).
          - unfold gact. pose proof k0_in as Hk.
            pose proof (sumf_term_le (fun k => C i0 - gservice sc (i0, k) t) (N i0) k0 Hk ltac:(intros k _; pose proof (serv_le i0 k t Hi0); lia)) as Gt.
            cbv beta in Gt. replace (sumf (fun k => C i0 - gservice sc (i0, k) t) (N i0)) with (Z.of_nat (N i0) * C i0 - sumf (fun k => gservice sc (i0, k) t) (N i0)) in Gt; [exact Gt|].
            enough (sumf (fun k => (C i0 - gservice sc (i0, k) t) + gservice sc (i0, k) t) (N i0) = Z.of_nat (N i0) * C i0) as Q by (rewrite sumf_add in Q; lia).
            rewrite (sumf_ext _ (fun _ => C i0)) by (intros; lia). rewrite sumf_const. lia.
          - unfold gW. pose proof (sumf_term_le (fun i => Z.of_nat (N i) * C i - gact i t) n i0 Hi0
              ltac:(intros i Hi; pose proof (act_le i t Hi); lia)) as Gt. exact Gt. }
        assert (G : forall e, (e <= c)%nat -> V (t1 + e)%nat <= V t1 - Z.of_nat m * (Z.of_nat e - (gservice sc (i0, k0) (t1 + e) - gservice sc (i0, k0) t1))).
        { induction e; intros He; [rewrite Nat.add_0_r; lia|]. rewrite Nat.add_succ_r. specialize (IHe ltac:(lia)).
          unfold V in *. rewrite W_step, gservice_step. destruct (gruns sc (i0, k0) (t1 + e)) eqn:Er; cbn [b2z].
          - assert (1 <= gE (t1 + e)) by (apply progress; [unfold t1; lia|apply Hinc; lia]). lia.
          - rewrite (waiting i0 k0 (t1 + e) Hi0 k0_in (Hready (t1 + e)%nat ltac:(lia)) Er). lia. }
        specialize (G c (le_n c)). pose proof (HV0 (t1 + c)%nat) as Hv1. unfold V in G, Hv1.
        pose proof (gservice_nonneg sc (i0, k0) t1) as S0. unfold c in G at 3. rewrite Z2Nat.id in G by lia.
        pose proof (gservice_mono sc (i0, k0) t1 (t1 + c) ltac:(lia)) as S1.
        set (g0 := gservice sc (i0, k0) t1) in *. set (g1 := gservice sc (i0, k0) (t1 + c)) in *.
        assert (1 <= Z.of_nat m) by lia. nia.
      - (* some processor idles or serves later jobs before t1: the backlog has fewer than m tasks *)
        apply not_true_iff_false in Ef. rewrite forallb_forall in Ef.
        assert (exists d, (d < Z.to_nat (X i0))%nat /\ gE (td + d) <> Z.of_nat m) as [d [Hd Hne]].
        { clear - Ef. revert Ef. generalize (Z.to_nat (X i0)) as M. induction M; intros Ef; [exfalso; apply Ef; intros x []|].
          destruct (Z.eqb_spec (gE (td + M)) (Z.of_nat m)) as [Em|Em]; [|exists M; split; [lia|assumption]].
          destruct IHM as [d [Hd Hne]]; [|exists d; split; [lia|assumption]]. intros Hall. apply Ef. intros x Hx. apply in_seq in Hx.
          destruct (Nat.eq_dec x M) as [->|Nx]; [apply Z.eqb_eq; exact Em|]. apply Hall. apply in_seq. lia. }
        pose proof (B_le_E (td + d) ltac:(lia) Hne) as Hb. pose proof (E_le (td + d)) as He.
        assert (Hrun : forall e, (t1 <= e < t1 + c)%nat -> gruns sc (i0, k0) e = true).
        { intros e He'. destruct (gruns sc (i0, k0) e) eqn:Er; [reflexivity|exfalso].
          pose proof (waiting i0 k0 e Hi0 k0_in (Hready e ltac:(lia)) Er) as Hm. pose proof (E_le_B e). pose proof (B_mono (td + d) e ltac:(unfold t1 in He'; lia)). lia. }
        assert (G : forall e, (e <= c)%nat -> Z.of_nat e <= gservice sc (i0, k0) (t1 + e)).
        { induction e; intros Hec; [apply gservice_nonneg|]. rewrite Nat.add_succ_r, gservice_step, (Hrun (t1 + e)%nat) by lia. cbn [b2z].
          specialize (IHe ltac:(lia)). lia. }
        specialize (G c (le_n c)). unfold c in G at 1. lia.
    Qed.

    Lemma in_time_td : in_time (i0, k0).
    Proof. destruct (Z.lt_ge_cases (X i0) 0); [apply finish_neg|apply finish_pos]; assumption. Qed.
  End Td.

  Fixpoint jobs_upto (i td fuel k : nat) : nat :=
    match fuel with
    | O => k
    | S f => if Z.of_nat (arr s i k) + Y i <=? Z.of_nat td then jobs_upto i td f (S k) else k
    end.

  Lemma jobs_upto_spec : forall i td, (i < n)%nat -> forall fuel k,
    (forall k', (k' < k)%nat -> Z.of_nat (arr s i k') + Y i <= Z.of_nat td) ->
    Z.of_nat td < Z.of_nat (arr s i (k + fuel)) + Y i ->
    forall k', (k' < jobs_upto i td fuel k)%nat <-> Z.of_nat (arr s i k') + Y i <= Z.of_nat td.
  Proof.
    intros i td Hi. pose proof (Hpar i Hi) as Hp.
    assert (Hlast : forall k, Z.of_nat td < Z.of_nat (arr s i k) + Y i -> forall k', (k <= k')%nat -> Z.of_nat td < Z.of_nat (arr s i k') + Y i).
    { intros k H k' L. destruct (Nat.eq_dec k k') as [<-|Nk]; [assumption|]. pose proof (arr_mono i Hi (k' - k) k ltac:(lia)) as G.
      replace (k + (k' - k))%nat with k' in G by lia. lia. }
    induction fuel; intros k H1 H2 k'; cbn [jobs_upto].
    - rewrite Nat.add_0_r in H2. split; [apply H1|]. intros H. destruct (Nat.lt_ge_cases k' k) as [L|L]; [assumption|]. specialize (Hlast k H2 k' L). lia.
    - destruct (Z.leb_spec (Z.of_nat (arr s i k) + Y i) (Z.of_nat td)) as [L|L].
      + apply IHfuel.
        * intros k2 Hk2. destruct (Nat.eq_dec k2 k) as [->|Nk]; [assumption|apply H1; lia].
        * rewrite Nat.add_succ_l, <- Nat.add_succ_r. assumption.
      + split; [apply H1|]. intros H. destruct (Nat.lt_ge_cases k' k) as [Lk|Lk]; [assumption|]. specialize (Hlast k L k' Lk). lia.
  Qed.

  Lemma arr_ge_idx : forall i, (i < n)%nat -> forall k, (k <= arr s i k)%nat.
  Proof. intros i Hi. pose proof (Hpar i Hi). induction k; [lia|]. destruct (Hleg i Hi k) as [Ha _]. lia. Qed.

  Theorem gel_full_cost : forall j, (fst j < n)%nat -> in_time j.
  Proof.
    enough (G : forall td j, (fst j < n)%nat -> Z.of_nat (arr s (fst j) (snd j)) + Y (fst j) = Z.of_nat td -> in_time j).
    { intros j Hj. pose proof (Hpar _ Hj). apply (G (Z.to_nat (Z.of_nat (arr s (fst j) (snd j)) + Y (fst j)))); [assumption|lia]. }
    induction td as [td IHtd] using lt_wf_ind. intros [i k] Hj Htd. cbn [fst snd] in *.
    assert (HN : forall i, (i < n)%nat -> forall k, (k < jobs_upto i td (S td) 0)%nat <-> Z.of_nat (arr s i k) + Y i <= Z.of_nat td).
    { intros i' Hi'. apply jobs_upto_spec; [assumption|intros; lia|]. pose proof (arr_ge_idx i' Hi' (0 + S td)). pose proof (Hpar i' Hi'). lia. }
    assert (IH : forall j, (fst j < n)%nat -> Z.of_nat (arr s (fst j) (snd j)) + Y (fst j) < Z.of_nat td -> in_time j).
    { intros j' Hj' Hlt. pose proof (Hpar _ Hj'). apply (IHtd (Z.to_nat (Z.of_nat (arr s (fst j') (snd j')) + Y (fst j')))); [lia|assumption|lia]. }
    apply (in_time_td td (fun i => jobs_upto i td (S td) 0)); try assumption. apply W_td; assumption.
  Qed.

  (** ** The bound of Devi and Anderson

      Priority points are deadlines at the end of the period, and the tardiness
      allowance [x] is the same for all tasks.  One of the at most K tasks with
      backlog at an instant that is not busy need not be charged for tardiness:
      if all K are tardy, their fluid lag is covered by the backlog of the jobs
      whose deadlines have passed, to which the induction applies.  The invariant
      counts, for tasks with backlog, the fluid service of later jobs as well. *)
  Section DA.
    Variables (x Bd : Z).
    Hypothesis HY : forall i, (i < n)%nat -> Y i = T i.
    Hypothesis HXx : forall i, (i < n)%nat -> X i = x.
    Hypothesis Hx : 0 <= x.
    Hypothesis HB1 : forall A A0, NoDup A -> (forall j, In j A -> (j < n)%nat) -> NoDup A0 -> incl A0 A -> (length A <= K)%nat -> (length A0 <= K - 1)%nat ->
      zsum (map (fun j => P * C j) A) + zsum (map (fun j => p j * x) A0) <= Bd.
    Hypothesis HB2 : forall i, (i < n)%nat -> Bd < P * (Z.of_nat m * (x + 1) + C i).

    Let Nd td i := jobs_upto i td (S td) 0.

    Lemma HNd : forall td i, (i < n)%nat -> forall k, (k < Nd td i)%nat <-> Z.of_nat (arr s i k) + Y i <= Z.of_nat td.
    Proof. intros td i Hi. unfold Nd. apply jobs_upto_spec; [assumption|intros; lia|]. pose proof (arr_ge_idx i Hi (0 + S td)). pose proof (Hpar i Hi). lia. Qed.

    Lemma Nd_mono : forall a b i, (i < n)%nat -> (a <= b)%nat -> (Nd a i <= Nd b i)%nat.
    Proof.
      intros a b i Hi L. destruct (Nat.le_gt_cases (Nd a i) (Nd b i)) as [|G]; [assumption|]. exfalso.
      pose proof (proj1 (HNd a i Hi (Nd b i)) G) as H. assert (X0 : (Nd b i < Nd b i)%nat) by (apply HNd; [assumption|lia]). lia.
    Qed.

    Definition win i t : Z := sumf (fun k => clamp (T i) (Z.of_nat t - Z.of_nat (arr s i k))) t.
    Definition fluid (M : nat) i t : Z := sumf (fun k => clamp (T i) (Z.of_nat t - Z.of_nat (arr s i k))) M.
    Definition dlate td i := gact (Nd td) i td <? Z.of_nat (Nd td i) * C i.
    Definition dideal td i t := p i * (if dlate td i then win i t else fluid (Nd td i) i t).
    Definition dlag td i t := dideal td i t - P * gact (Nd td) i t.
    Definition dinv td := sumf (fun i => dlag td i td) n <= Bd.

    Lemma clamp_pos : forall a b, 0 <= clamp a b. Proof. intros. unfold clamp. lia. Qed.

    Lemma win_any : forall i t M, (i < n)%nat -> (t <= M)%nat -> fluid M i t = win i t.
    Proof.
      intros i t M Hi L. unfold fluid, win. replace M with (t + (M - t))%nat by lia. rewrite sumf_split. rewrite (sumf_zero _ (M - t)); [lia|].
      intros k _. pose proof (arr_ge_idx i Hi (t + k)). unfold clamp. lia.
    Qed.

    Lemma fluid_le_win : forall i t M, (i < n)%nat -> fluid M i t <= win i t.
    Proof.
      intros i t M Hi. rewrite <- (win_any i t (M + t)) by (assumption || lia). unfold fluid. apply sumf_mono; [lia|]. intros. apply clamp_pos.
    Qed.

    Lemma fluid_step : forall M i t, (i < n)%nat -> fluid M i (S t) <= fluid M i t + 1.
    Proof.
      intros M i t Hi. unfold fluid. pose proof (Hpar i Hi) as [H1 [H2 _]].
      pose proof (windows_step (fun k => Z.of_nat (arr s i k)) (T i) ltac:(lia) ltac:(intros k; destruct (Hleg i Hi k) as [Ha _]; lia) M (Z.of_nat t)) as Ws.
      cbv beta in Ws. replace (Z.of_nat (S t)) with (Z.of_nat t + 1) by lia. exact Ws.
    Qed.

    Lemma win_step : forall i t, (i < n)%nat -> win i (S t) <= win i t + 1.
    Proof. intros i t Hi. rewrite <- (win_any i t (S t)), <- (win_any i (S t) (S t)) by (assumption || lia). apply fluid_step. assumption. Qed.

    Lemma dideal_step : forall td i t, (i < n)%nat -> dideal td i (S t) <= dideal td i t + p i.
    Proof.
      intros td i t Hi. pose proof (p_bounds i Hi). unfold dideal. destruct (dlate td i).
      - pose proof (win_step i t Hi). nia.
      - pose proof (fluid_step (Nd td i) i t Hi). nia.
    Qed.

    (** caught up with the jobs up to [td] *)
    Lemma dlag_caught_up : forall td i t, (i < n)%nat -> (t <= td)%nat ->
      (forall k, (k < Nd td i)%nat -> (arr s i k < t)%nat -> gcompleted s sc (i, k) t) -> dlag td i t <= 0.
    Proof.
      intros td i t Hi Ht H. unfold dlag, dideal. destruct (Hpar i Hi) as [H1 [H2 [H3 H4]]]. pose proof (p_bounds i Hi) as Hp.
      assert (F : p i * fluid (Nd td i) i t <= P * gact (Nd td) i t).
      { unfold fluid, gact. rewrite <- !sumf_mul. apply sumf_le. intros k Hk. destruct (Nat.lt_ge_cases (arr s i k) t) as [L|L].
        - specialize (H k Hk L). unfold gcompleted in H. cbn [fst snd] in H. destruct (Hleg i Hi k) as [_ [_ Hc]].
          apply Z.le_trans with (p i * T i); [|nia]. unfold clamp. nia.
        - unfold clamp. replace (Z.max 0 _) with 0 by lia. pose proof (gservice_nonneg sc (i, k) t). nia. }
      destruct (dlate td i) eqn:Ed; [|lia]. unfold dlate in Ed. apply Z.ltb_lt in Ed.
      destruct (unfinished_ready td (Nd td) (HNd td) i td Hi (le_n _) Ed) as [h [Hh [_ [Hr _]]]]. cbn [fst snd] in Hr.
      assert (Ha : (t <= arr s i h)%nat).
      { destruct (Nat.le_gt_cases t (arr s i h)) as [|L]; [assumption|]. exfalso. specialize (H h Hh L).
        apply (gcompleted_mono s sc (i, h) t td Ht) in H. unfold gcompleted in H. cbn [fst snd] in H. lia. }
      enough (E0 : win i t = fluid (Nd td i) i t) by (rewrite E0; lia).
      rewrite <- (win_any i t (Nd td i + t)) by (assumption || lia). unfold fluid. rewrite sumf_split, (sumf_zero _ t); [lia|].
      intros k _. pose proof (arr_mono i Hi (Nd td i + k - h) h ltac:(lia)) as G. replace (h + (Nd td i + k - h))%nat with (Nd td i + k)%nat in G by lia.
      unfold clamp. lia.
    Qed.

    Lemma dlag_backlog : forall td i t h, (i < n)%nat -> (h < Nd td i)%nat ->
      (forall k, (k < h)%nat -> gcompleted s sc (i, k) t) ->
      dlag td i t <= p i * Z.max 0 (Z.of_nat t - Z.of_nat (arr s i h)) - P * gservice sc (i, h) t.
    Proof.
      intros td i t h Hi Hh Hdone. destruct (Hpar i Hi) as [H1 [H2 [H3 H4]]]. pose proof (p_bounds i Hi) as Hp.
      assert (Fl : forall M, fluid (h + M) i t <= Z.of_nat h * T i + Z.max 0 (Z.of_nat t - Z.of_nat (arr s i h))).
      { intros M. unfold fluid. rewrite sumf_split.
        assert (sumf (fun k => clamp (T i) (Z.of_nat t - Z.of_nat (arr s i k))) h <= Z.of_nat h * T i).
        { apply Z.le_trans with (sumf (fun _ => T i) h); [|rewrite sumf_const; lia]. apply sumf_le. intros k _. unfold clamp. lia. }
        pose proof (windows_from (fun k => Z.of_nat (arr s i (h + k))) (T i) ltac:(lia)
          ltac:(intros k; destruct (Hleg i Hi (h + k)) as [Ha _]; rewrite Nat.add_succ_r; lia) M (Z.of_nat t)) as Wf.
        cbv beta in Wf. rewrite Nat.add_0_r in Wf. lia. }
      assert (I : dideal td i t <= p i * (Z.of_nat h * T i) + p i * Z.max 0 (Z.of_nat t - Z.of_nat (arr s i h))).
      { unfold dideal. destruct (dlate td i).
        - rewrite <- (win_any i t (h + t)) by (assumption || lia). specialize (Fl t). nia.
        - specialize (Fl (Nd td i - h)%nat). replace (h + (Nd td i - h))%nat with (Nd td i) in Fl by lia. nia. }
      assert (Ac : Z.of_nat h * C i + gservice sc (i, h) t <= gact (Nd td) i t).
      { unfold gact. replace (Nd td i) with (h + S (Nd td i - h - 1))%nat by lia. rewrite sumf_split.
        assert (Z.of_nat h * C i <= sumf (fun k => gservice sc (i, k) t) h).
        { apply Z.le_trans with (sumf (fun _ => C i) h); [rewrite sumf_const; lia|]. apply sumf_le. intros k Hk.
          specialize (Hdone k Hk). unfold gcompleted in Hdone. cbn [fst snd] in Hdone. destruct (Hleg i Hi k) as [_ [_ Hc]]. lia. }
        pose proof (sumf_term_le (fun k => gservice sc (i, (h + k)%nat) t) (S (Nd td i - h - 1)) O ltac:(lia)
          ltac:(intros; apply gservice_nonneg)) as Tl. cbv beta in Tl. rewrite Nat.add_0_r in Tl. lia. }
      unfold dlag. nia.
    Qed.

    (** some job up to [td] is unfinished after its deadline *)
    Definition dtardy td t i := existsb (fun h => (Z.of_nat (arr s i h) + T i <? Z.of_nat t) && (gservice sc (i, h) t <? C i)) (seq 0 (Nd td i)).

    Lemma dtardy_iff : forall td t i, dtardy td t i = true <->
      exists h, (h < Nd td i)%nat /\ Z.of_nat (arr s i h) + T i < Z.of_nat t /\ gservice sc (i, h) t < C i.
    Proof.
      intros td t i. unfold dtardy. rewrite existsb_exists. split.
      - intros [h [Hh H]]. apply in_seq in Hh. apply andb_prop in H. destruct H as [A B]. apply Z.ltb_lt in A, B. exists h. repeat split; (lia || assumption).
      - intros [h [Hh [A B]]]. exists h. split; [apply in_seq; lia|]. apply andb_true_iff. split; apply Z.ltb_lt; assumption.
    Qed.

    (** the first unfinished job *)
    Lemma first_unfinished : forall i t M, (i < n)%nat -> (exists k, (k < M)%nat /\ gservice sc (i, k) t < C i) ->
      exists h, (h < M)%nat /\ gservice sc (i, h) t < C i /\ forall k, (k < h)%nat -> gcompleted s sc (i, k) t.
    Proof.
      intros i t M Hi [k [Hk Hs]]. revert Hk Hs. induction k as [k IHk] using lt_wf_ind. intros Hk Hs.
      destruct (existsb (fun h => gservice sc (i, h) t <? C i) (seq 0 k)) eqn:Ee.
      - apply existsb_exists in Ee. destruct Ee as [h [Hh Eh]]. apply in_seq in Hh. apply Z.ltb_lt in Eh. apply (IHk h); lia || assumption.
      - exists k. split; [assumption|]. split; [assumption|]. intros h Hh. destruct (Z.lt_ge_cases (gservice sc (i, h) t) (C i)) as [L|L].
        + exfalso. assert (X0 : existsb (fun h => gservice sc (i, h) t <? C i) (seq 0 k) = true); [|congruence].
          apply existsb_exists. exists h. split; [apply in_seq; lia|apply Z.ltb_lt; assumption].
        + unfold gcompleted. cbn [fst snd]. destruct (Hleg i Hi h) as [_ [_ Hc]]. lia.
    Qed.

    Section Step.
      Variable td : nat.
      Hypothesis IH : forall j, (fst j < n)%nat -> Z.of_nat (arr s (fst j) (snd j)) + Y (fst j) < Z.of_nat td -> in_time j.
      Hypothesis IHinv : forall t, (t < td)%nat -> dinv t.

      Lemma dlag_task : forall i t, (i < n)%nat -> (t <= td)%nat ->
        dlag td i t <= P * C i + (if dtardy td t i then p i * x else 0).
      Proof.
        intros i t Hi Ht. destruct (Hpar i Hi) as [H1 [H2 [H3 H4]]]. pose proof (p_bounds i Hi) as Hp.
        destruct (existsb (fun k => gservice sc (i, k) t <? C i) (seq 0 (Nd td i))) eqn:Ee.
        - apply existsb_exists in Ee. destruct Ee as [k [Hk Ek]]. apply in_seq in Hk. apply Z.ltb_lt in Ek.
          destruct (first_unfinished i t (Nd td i) Hi) as [h [Hh [Hs Hd]]]; [exists k; split; [lia|assumption]|].
          pose proof (dlag_backlog td i t h Hi Hh Hd) as G. pose proof (gservice_nonneg sc (i, h) t) as S0.
          destruct (Z.lt_ge_cases (Z.of_nat (arr s i h) + T i) (Z.of_nat t)) as [L|L].
          + replace (dtardy td t i) with true by (symmetry; apply dtardy_iff; exists h; repeat split; assumption).
            destruct (IH (i, h)) as [q [Hq Hc]]; [assumption|cbn [fst snd]; rewrite (HY i Hi); lia|]. cbn [fst snd] in Hq. rewrite (HY i Hi), (HXx i Hi) in Hq.
            unfold gcompleted in Hc. cbn [fst snd] in Hc. destruct (Hleg i Hi h) as [_ [_ Hch]].
            assert (Gd : forall d, gservice sc (i, h) (t + d) <= gservice sc (i, h) t + Z.of_nat d).
            { induction d; [rewrite Nat.add_0_r; lia|]. rewrite Nat.add_succ_r, gservice_step. pose proof (b2z_range (gruns sc (i, h) (t + d))). lia. }
            destruct (Nat.le_gt_cases q t) as [Lq|Lq]; [pose proof (gservice_mono sc (i, h) q t Lq); lia|].
            specialize (Gd (q - t)%nat). replace (t + (q - t))%nat with q in Gd by lia.
            rewrite Z.max_r in G by lia.
            assert (Z.of_nat t - Z.of_nat (arr s i h) <= T i + x + gservice sc (i, h) t) by lia. nia.
          + assert (Z.max 0 (Z.of_nat t - Z.of_nat (arr s i h)) <= T i) by lia.
            assert (0 <= if dtardy td t i then p i * x else 0) by (destruct (dtardy td t i); nia). nia.
        - assert (dlag td i t <= 0).
          { apply dlag_caught_up; [assumption|assumption|]. intros k Hk _. unfold gcompleted. cbn [fst snd]. destruct (Hleg i Hi k) as [_ [_ Hc]].
            destruct (Z.lt_ge_cases (gservice sc (i, k) t) (C i)) as [L|L]; [|lia]. exfalso.
            assert (X0 : existsb (fun k => gservice sc (i, k) t <? C i) (seq 0 (Nd td i)) = true); [|congruence].
            apply existsb_exists. exists k. split; [apply in_seq; lia|apply Z.ltb_lt; assumption]. }
          assert (0 <= if dtardy td t i then p i * x else 0) by (destruct (dtardy td t i); nia). nia.
      Qed.

      Lemma dlag_final : forall t i, (i < n)%nat -> P * (Z.of_nat (Nd t i) * C i) <= dideal t i t.
      Proof.
        intros t i Hi. destruct (Hpar i Hi) as [H1 [H2 [H3 H4]]]. pose proof (p_bounds i Hi) as Hp.
        assert (F : Z.of_nat (Nd t i) * T i <= fluid (Nd t i) i t).
        { apply Z.le_trans with (sumf (fun _ => T i) (Nd t i)); [rewrite sumf_const; lia|]. apply sumf_le. intros k Hk.
          apply HNd in Hk; [|assumption]. rewrite (HY i Hi) in Hk. unfold clamp. lia. }
        apply Z.le_trans with (p i * fluid (Nd t i) i t); [nia|]. unfold dideal. destruct (dlate t i); [|lia].
        pose proof (fluid_le_win i t (Nd t i) Hi). nia.
      Qed.

      Lemma dlag_nonneg : forall t i, (i < n)%nat -> 0 <= dlag t i t.
      Proof. intros t i Hi. unfold dlag. pose proof (dlag_final t i Hi). pose proof (act_le (Nd t) i t Hi). nia. Qed.

      Lemma list_le_sumf : forall (f g : nat -> Z) (q : nat -> bool) k,
        (forall i, (i < k)%nat -> 0 <= g i /\ (q i = true -> f i <= g i)) -> zsum (map f (filter q (seq 0 k))) <= sumf g k.
      Proof.
        intros f g q. induction k; intros H; [reflexivity|]. cbn [sumf]. rewrite seq_S, filter_app, map_app, zsum_app.
        cbn [filter Nat.add]. specialize (IHk ltac:(intros; apply H; lia)). destruct (H k ltac:(lia)) as [H1 H2].
        destruct (q k); cbn [map zsum]; [specialize (H2 eq_refl)|]; lia.
      Qed.

      Lemma zsum_if : forall (f g : nat -> Z) (q : nat -> bool) l, zsum (map (fun i => f i + (if q i then g i else 0)) l) = zsum (map f l) + zsum (map g (filter q l)).
      Proof. induction l as [|a l IHl]; [reflexivity|]. cbn [map zsum filter]. destruct (q a); cbn [map zsum]; lia. Qed.

      Lemma filter_all : forall (q : nat -> bool) l, (length l <= length (filter q l))%nat -> forall i, In i l -> q i = true.
      Proof.
        induction l as [|a l IHl]; intros H i Hi; [destruct Hi|]. cbn [filter length] in H.
        assert (F : (length (filter q l) <= length l)%nat) by (clear; induction l as [|b l IHl]; cbn; [lia|destruct (q b); cbn; lia]).
        destruct (q a) eqn:Ea; cbn [length] in H; [|lia]. destruct Hi as [<-|Hi]; [assumption|]. apply IHl; [lia|assumption].
      Qed.

      (** If all tasks with backlog are tardy, the invariant for the deadlines
          that have passed covers their lag. *)
      Lemma all_tardy : forall t, (t < td)%nat -> gE (Nd td) t <= Z.of_nat K ->
        (forall i, (i < n)%nat -> gpsi (Nd td) i t = true -> dtardy td (S t) i = true) ->
        zsum (map (fun i => dlag td i (S t)) (filter (fun i => gpsi (Nd td) i t) (seq 0 n))) <= Bd.
      Proof.
        intros t Ht HE Hall. eapply Z.le_trans; [|apply (IHinv t Ht)]. apply list_le_sumf. intros i Hi. split; [apply dlag_nonneg; assumption|].
        intros Hps. specialize (Hall i Hi Hps). apply dtardy_iff in Hall. destruct Hall as [h [Hh [Hd Hs]]].
        destruct (Hpar i Hi) as [H1 [H2 [H3 H4]]]. pose proof (p_bounds i Hi) as Hp.
        assert (Hht : (h < Nd t i)%nat) by (apply HNd; [assumption|]; rewrite (HY i Hi); lia).
        assert (Hst : gservice sc (i, h) t < C i) by (pose proof (gservice_mono sc (i, h) t (S t) ltac:(lia)); lia).
        assert (Hla : dlate t i = true).
        { unfold dlate. apply Z.ltb_lt. unfold gact. apply Z.lt_le_trans with (sumf (fun _ => C i) (Nd t i)); [|rewrite sumf_const; lia].
          enough (0 < sumf (fun k => C i - gservice sc (i, k) t) (Nd t i)) as G.
          { rewrite (sumf_ext (fun _ => C i) (fun k => (C i - gservice sc (i, k) t) + gservice sc (i, k) t)) by (intros; lia). rewrite sumf_add. lia. }
          pose proof (sumf_term_le (fun k => C i - gservice sc (i, k) t) (Nd t i) h Hht ltac:(intros k _; pose proof (serv_le i k t Hi); lia)) as G. cbv beta in G. lia. }
        (* the running job is up to t *)
        assert (Hrun : gpsi (Nd t) i t = true).
        { destruct (ready_or_done (Nd td) i t h Hi Hh) as [h' [Hh' Hr]]; [lia|unfold gcompleted; cbn [fst snd]; destruct (Hleg i Hi h) as [_ [_ Hc]]; lia|].
          destruct (gruns sc (i, h') t) eqn:Er; [apply psi_iff; exists h'; split; [lia|assumption]|].
          pose proof (waiting td (Nd td) (HNd td) i h' t Hi ltac:(lia) Hr Er). lia. }
        assert (HNm : (Nd t i <= Nd td i)%nat) by (apply Nd_mono; [assumption|lia]).
        assert (Ha : gact (Nd t) i (S t) <= gact (Nd td) i (S t)) by (unfold gact; apply sumf_mono; [assumption|intros; apply gservice_nonneg]).
        rewrite (act_step (Nd t) i t), Hrun in Ha. cbn [b2z] in Ha.
        assert (Hw : dideal td i (S t) <= p i * win i (S t)).
        { unfold dideal. destruct (dlate td i); [lia|]. pose proof (fluid_le_win i (S t) (Nd td i) Hi). nia. }
        pose proof (win_step i t Hi) as Hws. unfold dlag at 2. unfold dideal at 1. rewrite Hla. unfold dlag. nia.
      Qed.

      Lemma Bd_nonneg : 0 <= Bd.
      Proof. pose proof (HB1 [] []) as G. cbn in G. apply G; try constructor; try lia; intros ? []. Qed.

      Lemma dlag_bound : forall t, (t <= td)%nat -> sumf (fun i => dlag td i t) n <= Bd.
      Proof.
        induction t as [|t IHt]; intros Ht.
        - pose proof Bd_nonneg. enough (sumf (fun i => dlag td i 0) n <= sumf (fun _ => 0) n) as G by (rewrite sumf_const in G; lia).
          apply sumf_le. intros i Hi. apply dlag_caught_up; [assumption|assumption|]. intros; lia.
        - specialize (IHt ltac:(lia)). destruct (Z.le_gt_cases (gE (Nd td) t) (Z.of_nat K)) as [L|L].
          + set (A := filter (fun i => gpsi (Nd td) i t) (seq 0 n)).
            assert (HA : (length A <= K)%nat) by (pose proof (psi_list (Nd td) t) as Gl; unfold A; lia).
            assert (HAn : forall j, In j A -> (j < n)%nat) by (intros j Hj; apply filter_In in Hj; destruct Hj as [Hj _]; apply in_seq in Hj; lia).
            assert (HAd : NoDup A) by (apply NoDup_filter, seq_NoDup).
            apply Z.le_trans with (zsum (map (fun i => dlag td i (S t)) A)).
            { apply sumf_le_list. intros i Hi. destruct (gpsi (Nd td) i t) eqn:Ep; [lia|].
              apply dlag_caught_up; [assumption|assumption|]. intros k Hk Ha. eapply gcompleted_mono with (a := t); [lia|].
              destruct (Z.le_gt_cases (Z.of_nat (cst s i k)) (gservice sc (i, k) t)) as [Lc|Lc]; [exact Lc|]. exfalso.
              destruct (ready_or_done (Nd td) i t k Hi Hk ltac:(lia)) as [h [Hh Hr]]; [unfold gcompleted; cbn [fst snd]; lia|].
              destruct (gruns sc (i, h) t) eqn:Er.
              - enough (gpsi (Nd td) i t = true) by congruence. apply psi_iff. exists h. split; [lia|assumption].
              - pose proof (waiting td (Nd td) (HNd td) i h t Hi ltac:(lia) Hr Er). lia. }
            destruct (Nat.le_gt_cases (length A) (length (filter (dtardy td (S t)) A))) as [LA|LA].
            * apply all_tardy; [lia|assumption|]. intros i Hi Hps. apply (filter_all _ A LA). apply filter_In. split; [apply in_seq; lia|assumption].
            * apply Z.le_trans with (zsum (map (fun i => P * C i + (if dtardy td (S t) i then p i * x else 0)) A)).
              { clear LA HA. clearbody A. induction A as [|a A IHA]; [reflexivity|]. cbn [map zsum].
                pose proof (dlag_task a (S t) (HAn a (or_introl eq_refl)) Ht). inversion HAd; subst. specialize (IHA (fun j Hj => HAn j (or_intror Hj)) ltac:(assumption)). lia. }
              rewrite zsum_if. apply HB1; try assumption; [apply NoDup_filter; assumption| |lia].
              intros a Ha. apply filter_In in Ha. apply Ha.
          + assert (sumf (fun i => dlag td i (S t)) n <= sumf (fun i => dlag td i t + (p i + - P * b2z (gpsi (Nd td) i t))) n) as G.
            { apply sumf_le. intros i Hi. unfold dlag. rewrite (act_step (Nd td)). pose proof (dideal_step td i t Hi). lia. }
            rewrite !sumf_add, sumf_mul in G. fold (gE (Nd td) t) in G.
            assert (P * Z.of_nat (S K) <= P * gE (Nd td) t) by nia. lia.
      Qed.

      Lemma dW : forall i, (i < n)%nat -> gW (Nd td) td < Z.of_nat m * (X i + 1) + C i.
      Proof.
        intros i Hi. pose proof (dlag_bound td (le_n td)) as Hb. specialize (HB2 i Hi). rewrite (HXx i Hi).
        assert (P * gW (Nd td) td <= sumf (fun j => dlag td j td) n) as G.
        { unfold gW. rewrite <- sumf_mul. apply sumf_le. intros j Hj. unfold dlag. pose proof (dlag_final td j Hj). lia. }
        nia.
      Qed.
    End Step.

    Theorem da_full_cost : forall j, (fst j < n)%nat -> in_time j.
    Proof.
      enough (G : forall td, dinv td /\ forall j, (fst j < n)%nat -> Z.of_nat (arr s (fst j) (snd j)) + Y (fst j) = Z.of_nat td -> in_time j).
      { intros j Hj. pose proof (Hpar _ Hj). apply (G (Z.to_nat (Z.of_nat (arr s (fst j) (snd j)) + Y (fst j)))); [assumption|lia]. }
      induction td as [td IHtd] using lt_wf_ind.
      assert (IH : forall j, (fst j < n)%nat -> Z.of_nat (arr s (fst j) (snd j)) + Y (fst j) < Z.of_nat td -> in_time j).
      { intros j' Hj' Hlt. pose proof (Hpar _ Hj'). apply (IHtd (Z.to_nat (Z.of_nat (arr s (fst j') (snd j')) + Y (fst j')))); [lia|assumption|lia]. }
      assert (IHi : forall t, (t < td)%nat -> dinv t) by (intros t Ht; apply (IHtd t Ht)).
      split; [apply (dlag_bound td IH IHi td (le_n td))|].
      intros [i k] Hj Htd. cbn [fst snd] in *.
      apply (in_time_td td (Nd td) (HNd td) IH i k Hj Htd). apply dW; assumption.
    Qed.
  End DA.
End GEL.
