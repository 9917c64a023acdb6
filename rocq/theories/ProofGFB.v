(** Soundness of the density bound for global EDF: EDF is never behind the fluid
    schedule that runs each job at constant speed until its deadline. *)
From Coq Require Import ZArith List Bool Lia Wf_nat.
From Verif Require Import Base SpecUni SpecQPA SpecGlobal ProofUni ProofEDF ProofGlobal.
Import ListNotations.
Open Scope Z_scope.

Lemma sumf_strict : forall f g n, sumf f n < sumf g n -> exists k, (k < n)%nat /\ f k < g k.
Proof.
  intros f g n. induction n; cbn [sumf]; intros H; [lia|].
  destruct (Z.lt_ge_cases (f n) (g n)); [exists n; split; [lia|assumption]|].
  destruct IHn as [k [Hk E]]; [lia|]. exists k. split; [lia|assumption].
Qed.

Definition clamp (D x : Z) : Z := Z.min D (Z.max 0 x).

Section GFB.
  Variables (ts : list etask) (m : nat) (s : jobseq) (sc : gschedule).
  Let n := length ts.
  Hypothesis Hwf : Forall wf_etask ts.
  Hypothesis Hl : legal_edf ts s.
  Hypothesis Hv : gvalid n m s sc.
  Hypothesis Hp : gedf ts m s sc.
  Hypothesis Hm : (1 <= m)%nat.
  Let C i := e_cost (et ts i).
  Let D i := e_deadline (et ts i).
  Hypothesis HD : forall i, (i < n)%nat -> 1 <= D i <= e_period (et ts i).
  (** densities scaled by the common denominator P *)
  Variables (P : Z) (v : nat -> Z).
  Hypothesis HP : 0 < P.
  Hypothesis Hvi : forall i, (i < n)%nat -> v i * D i = P.
  Hypothesis Htest : forall k, (k < n)%nat ->
    sumf (fun i => C i * v i) n <= Z.of_nat m * P - (Z.of_nat m - 1) * (C k * v k).

  Let A i h := Z.of_nat (arr s i h).
  Let c i h := Z.of_nat (cst s i h).
  Definition fluid (i h : nat) (t : Z) : Z := Z.of_nat (cst s i h) * v i * clamp (e_deadline (et ts i)) (t - Z.of_nat (arr s i h)).

  Lemma v_nonneg : forall i, (i < n)%nat -> 0 <= v i.
  Proof. intros i Hi. pose proof (Hvi i Hi). pose proof (HD i Hi). nia. Qed.

  Lemma fluid_range : forall i h t, (i < n)%nat -> 0 <= fluid i h t <= c i h * P.
  Proof.
    intros i h t Hi. unfold fluid, clamp, c. pose proof (HD i Hi). pose proof (v_nonneg i Hi). fold (D i).
    rewrite <- (Hvi i Hi). split; [nia|].
    assert (0 <= Z.of_nat (cst s i h) * v i) by nia. nia.
  Qed.

  Section Level.
    Variable d : nat.
    (** jobs due before d are on time *)
    Hypothesis IHd : forall i h d', (i < n)%nat -> (d' < d)%nat -> Z.of_nat d' = due ts s (i, h) -> gcompleted s sc (i, h) d'.

    Definition inI (i h : nat) : bool := due ts s (i, h) <=? Z.of_nat d.
    Definition sumI (F : nat -> nat -> Z) : Z := sumf (fun i => sumf (fun h => if inI i h then F i h else 0) (S d)) (length ts).

    Lemma sumI_le : forall F G, (forall i h, (i < n)%nat -> inI i h = true -> F i h <= G i h) -> sumI F <= sumI G.
    Proof.
      intros F G H. apply sumf_le. intros i Hi. apply sumf_le. intros h _. destruct (inI i h) eqn:E; [|lia]. apply H; assumption.
    Qed.
    Lemma sumI_add : forall F G, sumI (fun i h => F i h + G i h) = sumI F + sumI G.
    Proof.
      intros. unfold sumI. rewrite <- sumf_add. apply sumf_ext. intros i _. rewrite <- sumf_add. apply sumf_ext.
      intros h _. destruct (inI i h); lia.
    Qed.
    Lemma sumI_ext : forall F G, (forall i h, (i < n)%nat -> F i h = G i h) -> sumI F = sumI G.
    Proof.
      intros F G H. apply sumf_ext. intros i Hi. apply sumf_ext. intros h _. destruct (inI i h); [|reflexivity]. apply H; assumption.
    Qed.
    Lemma sumI_mul : forall F a, sumI (fun i h => a * F i h) = a * sumI F.
    Proof.
      intros. unfold sumI. rewrite <- sumf_mul. apply sumf_ext. intros i _. rewrite <- sumf_mul. apply sumf_ext.
      intros h _. destruct (inI i h); lia.
    Qed.
    Lemma sumI_strict : forall F G, sumI F < sumI G -> exists i h, (i < n)%nat /\ inI i h = true /\ F i h < G i h.
    Proof.
      intros F G H. apply sumf_strict in H. destruct H as [i [Hi H]]. apply sumf_strict in H. destruct H as [h [Hh H]].
      exists i, h. destruct (inI i h); [auto|lia].
    Qed.

    (** fluid work done in one slot *)
    Lemma fluid_step : forall u, sumI (fun i h => fluid i h (u + 1)) <= sumI (fun i h => fluid i h u) + sumf (fun i => C i * v i) n.
    Proof.
      intros u. unfold sumI. rewrite <- sumf_add. apply sumf_le. intros i Hi.
      fold n in Hi. pose proof (HD i Hi) as Hd. pose proof (v_nonneg i Hi) as Hvn.
      assert (G : forall K, sumf (fun h => if inI i h then fluid i h (u + 1) else 0) K <=
        sumf (fun h => if inI i h then fluid i h u else 0) K +
        (if existsb (fun h => (A i h <=? u) && (u <? A i h + D i)) (seq 0 K) then C i * v i else 0)).
      { induction K; [cbn; lia|]. cbn [sumf]. rewrite seq_S, existsb_app. cbn [existsb plus]. rewrite orb_false_r.
        assert (S1 : (if inI i K then fluid i K (u + 1) else 0) <= (if inI i K then fluid i K u else 0) +
           (if (A i K <=? u) && (u <? A i K + D i) then C i * v i else 0)).
        { pose proof (cst_le ts s Hwf Hl i K Hi) as Hc. fold (C i) in Hc.
          assert (Hcv : Z.of_nat (cst s i K) * v i <= C i * v i) by nia.
          assert (0 <= Z.of_nat (cst s i K) * v i) by nia.
          destruct (inI i K).
          - unfold fluid, clamp. fold (D i) (A i K).
            destruct (Z.leb_spec (A i K) u); destruct (Z.ltb_spec u (A i K + D i)); cbn [andb].
            + replace (Z.min (D i) (Z.max 0 (u + 1 - A i K))) with (Z.min (D i) (Z.max 0 (u - A i K)) + 1) by lia. nia.
            + replace (Z.min (D i) (Z.max 0 (u + 1 - A i K))) with (Z.min (D i) (Z.max 0 (u - A i K))) by lia. lia.
            + replace (Z.min (D i) (Z.max 0 (u + 1 - A i K))) with (Z.min (D i) (Z.max 0 (u - A i K))) by lia. lia.
            + lia.
          - destruct ((A i K <=? u) && (u <? A i K + D i)); nia. }
        destruct (existsb (fun h => (A i h <=? u) && (u <? A i h + D i)) (seq 0 K)) eqn:Ex.
        - apply existsb_exists in Ex. destruct Ex as [h [Hh Ex]]. apply in_seq in Hh. apply andb_true_iff in Ex.
          destruct Ex as [E1 E2]. apply Z.leb_le in E1. apply Z.ltb_lt in E2.
          pose proof (sep_lt ts s Hwf Hl i h K Hi ltac:(lia)) as Sp. fold (A i h) (A i K) in Sp.
          destruct (Z.leb_spec (A i K) u) as [E3|E3]; [unfold D in *; lia|]. cbn [andb orb] in *. lia.
        - cbn [orb]. lia. }
      specialize (G (S d)). pose proof (et_legal ts s Hwf Hl i Hi) as [[W1 _] _]. fold (C i) in W1.
      assert (0 <= C i * v i) by nia.
      destruct (existsb (fun h => (A i h <=? u) && (u <? A i h + D i)) (seq 0 (S d))); lia.
    Qed.

    (** a slot with m jobs of I *)
    Lemma slot_work : forall u, (forall j, In j (sc u) -> due ts s j <= Z.of_nat d) ->
      Z.of_nat (length (sc u)) <= sumI (fun i h => b2z (gruns sc (i, h) u)).
    Proof.
      intros u H. rewrite (busy_count n m s sc Hv). apply sumf_le. intros i Hi.
      assert (N0 : forall k0, 0 <= (if inI i k0 then b2z (gruns sc (i, k0) u) else 0)).
      { intros k0. pose proof (b2z_range (gruns sc (i, k0) u)). destruct (inI i k0); lia. }
      destruct (trun sc i u) eqn:E; [|cbn [b2z]; apply sumf_nonneg; intros; apply N0].
      apply trun_iff in E. destruct E as [h E]. pose proof E as E'. apply gruns_iff in E. specialize (H _ E).
      assert (Hh : (h < S d)%nat).
      { pose proof (arr_ge ts s Hwf Hl i h Hi). unfold due in H. cbn [fst snd] in H. fold (et ts i) (D i) in H.
        pose proof (HD i Hi). lia. }
      pose proof (sumf_term_le (fun h => if inI i h then b2z (gruns sc (i, h) u) else 0) (S d) h Hh ltac:(intros; apply N0)) as X.
      cbn beta in X. rewrite E' in X. unfold inI at 1 in X. apply Z.leb_le in H. rewrite H in X. exact X.
    Qed.

    Lemma slot_one : forall u i h, (i < n)%nat -> inI i h = true -> gruns sc (i, h) u = true ->
      1 <= sumI (fun i h => b2z (gruns sc (i, h) u)).
    Proof.
      intros u i h Hi Hin E. unfold sumI.
      assert (N0 : forall i k0, 0 <= (if inI i k0 then b2z (gruns sc (i, k0) u) else 0)).
      { intros a k0. pose proof (b2z_range (gruns sc (a, k0) u)). destruct (inI a k0); lia. }
      assert (Hh : (h < S d)%nat).
      { pose proof (arr_ge ts s Hwf Hl i h Hi). unfold inI in Hin. apply Z.leb_le in Hin. unfold due in Hin. cbn [fst snd] in Hin.
        fold (et ts i) (D i) in Hin. pose proof (HD i Hi). lia. }
      pose proof (sumf_term_le (fun i => sumf (fun h => if inI i h then b2z (gruns sc (i, h) u) else 0) (S d)) n i Hi
        ltac:(intros; apply sumf_nonneg; intros; apply N0)) as X.
      pose proof (sumf_term_le (fun h => if inI i h then b2z (gruns sc (i, h) u) else 0) (S d) h Hh ltac:(intros; apply N0)) as Y.
      cbn beta in X, Y. rewrite Hin, E in Y. cbn [b2z] in Y. fold n. lia.
    Qed.

    Lemma ahead_of_fluid : forall t, sumI (fun i h => fluid i h (Z.of_nat t)) <= P * sumI (fun i h => gservice sc (i, h) t).
    Proof.
      induction t as [t IH] using (well_founded_induction lt_wf).
      destruct (Z.le_gt_cases (sumI (fun i h => fluid i h (Z.of_nat t))) (P * sumI (fun i h => gservice sc (i, h) t))) as [G|G]; [assumption|exfalso].
      pose proof G as G'. rewrite <- sumI_mul in G'. apply sumI_strict in G'. destruct G' as [i [h [Hi [Hin Hb]]]].
      set (r := arr s i h). pose proof (gservice_nonneg sc (i, h) t) as Sn.
      pose proof (HD i Hi) as Hd. pose proof (v_nonneg i Hi) as Hvn.
      assert (Hr : (r < t)%nat).
      { destruct (Nat.lt_ge_cases r t) as [x|x]; [assumption|exfalso]. unfold fluid, clamp in Hb. fold (D i) in Hb. fold r in Hb.
        replace (Z.min (D i) (Z.max 0 (Z.of_nat t - Z.of_nat r))) with 0 in Hb by lia. nia. }
      assert (Hinc : gservice sc (i, h) t < c i h).
      { pose proof (fluid_range i h (Z.of_nat t) Hi). nia. }
      assert (Hpred : forall h', (h' < h)%nat -> gcompleted s sc (i, h') r).
      { intros h' Hh'. pose proof (sep_lt ts s Hwf Hl i h' h Hi Hh') as Sp. fold r in Sp.
        apply gcompleted_mono with (a := (arr s i h' + Z.to_nat (D i))%nat); [lia|].
        apply IHd; [assumption| |].
        - unfold inI in Hin. apply Z.leb_le in Hin. unfold due in Hin. cbn [fst snd] in Hin. fold (et ts i) (D i) r in Hin. lia.
        - unfold due. cbn [fst snd]. fold (et ts i) (D i). lia. }
      specialize (IH r Hr).
      (* window *)
      assert (Win : forall x, (x <= t - r)%nat ->
        sumI (fun i h => fluid i h (Z.of_nat (r + x))) <= sumI (fun i h => fluid i h (Z.of_nat r)) + Z.of_nat x * sumf (fun i => C i * v i) n /\
        sumI (fun i h => gservice sc (i, h) r) + Z.of_nat m * Z.of_nat x - (Z.of_nat m - 1) * gservice sc (i, h) (r + x)
          <= sumI (fun i h => gservice sc (i, h) (r + x))).
      { induction x; intros Hx.
        - rewrite Nat.add_0_r. split; [lia|].
          pose proof (gservice_nonneg sc (i, h) r). nia.
        - destruct IHx as [I1 I2]; [lia|]. split.
          + replace (Z.of_nat (r + S x)) with (Z.of_nat (r + x) + 1) by lia. pose proof (fluid_step (Z.of_nat (r + x))). lia.
          + rewrite Nat.add_succ_r. rewrite gservice_step.
            rewrite (sumI_ext (fun i h => gservice sc (i, h) (S (r + x))) (fun i h => gservice sc (i, h) (r + x) + b2z (gruns sc (i, h) (r + x))))
              by (intros; apply gservice_step).
            rewrite sumI_add. destruct (gruns sc (i, h) (r + x)) eqn:E.
            * pose proof (slot_one (r + x) i h Hi Hin E). cbn [b2z]. lia.
            * assert (Hnr : ~ In (i, h) (sc (r + x)%nat)) by (rewrite <- gruns_iff; congruence).
              assert (Hrd : gready s sc (i, h) (r + x)).
              { split; [|split]; cbn [fst snd].
                - rewrite (arr_rel ts s Hwf Hl) by assumption. fold r. lia.
                - pose proof (gservice_mono sc (i, h) (r + x) t ltac:(lia)). unfold c in Hinc. lia.
                - intros h' Hh'. eapply gcompleted_mono; [|apply Hpred; assumption]. lia. }
              destruct (Hp (r + x)%nat (i, h) Hi Hrd Hnr) as [B1 B2].
              pose proof (slot_work (r + x)) as SW. rewrite B1 in SW. cbn [b2z].
              assert (Hall : forall j, In j (sc (r + x)%nat) -> due ts s j <= Z.of_nat d).
              { intros j Hj. specialize (B2 j Hj). unfold inI in Hin. apply Z.leb_le in Hin. lia. }
              specialize (SW Hall). lia. }
      destruct (Win (t - r)%nat ltac:(lia)) as [W1 W2]. replace (r + (t - r))%nat with t in W1, W2 by lia.
      set (y := gservice sc (i, h) t) in *. set (Lm := Z.of_nat (t - r)) in *.
      assert (Hy : P * y < C i * v i * Lm).
      { eapply Z.lt_le_trans; [exact Hb|]. unfold fluid, clamp. fold (D i) r.
        pose proof (cst_le ts s Hwf Hl i h Hi) as Hc. fold (C i) in Hc.
        assert (0 <= Z.of_nat (cst s i h) * v i <= C i * v i) by nia.
        assert (Z.min (D i) (Z.max 0 (Z.of_nat t - Z.of_nat r)) <= Lm) by (unfold Lm; lia). nia. }
      pose proof (Htest i Hi). set (U := sumf (fun i => C i * v i) n) in *.
      assert (X1 : P * (Z.of_nat m * Lm - (Z.of_nat m - 1) * y) < Lm * U) by nia.
      assert (X2 : Lm * U <= Lm * (Z.of_nat m * P - (Z.of_nat m - 1) * (C i * v i))) by (apply Z.mul_le_mono_nonneg_l; [unfold Lm; lia|exact (Htest i Hi)]).
      assert (X3 : (Z.of_nat m - 1) * (P * y) <= (Z.of_nat m - 1) * (C i * v i * Lm)) by (apply Z.mul_le_mono_nonneg_l; lia).
      nia.
    Qed.

    Lemma level_done : forall i h, (i < n)%nat -> inI i h = true -> gcompleted s sc (i, h) d.
    Proof.
      intros i h Hi Hin.
      destruct (Z.le_gt_cases (c i h) (gservice sc (i, h) d)) as [G|G]; [exact G|exfalso].
      pose proof (ahead_of_fluid d) as X.
      assert (Y : sumI (fun i h => gservice sc (i, h) d) < sumI c).
      { unfold sumI.
        assert (Hh : (h < S d)%nat).
        { pose proof (arr_ge ts s Hwf Hl i h Hi). unfold inI in Hin. apply Z.leb_le in Hin. unfold due in Hin. cbn [fst snd] in Hin.
          fold (et ts i) (D i) in Hin. pose proof (HD i Hi). lia. }
        assert (SL : forall f g N x, (x < N)%nat -> (forall k, (k < N)%nat -> f k <= g k) -> f x < g x -> sumf f N < sumf g N).
        { intros f g N x Hx H1 H2. pose proof (sumf_le f g N H1).
          assert (sumf f N + (g x - f x) <= sumf g N); [|lia].
          pose proof (sumf_term_le (fun k => g k - f k) N x Hx ltac:(intros k Hk; specialize (H1 k Hk); lia)) as Z1.
          cbn beta in Z1. rewrite (sumf_ext (fun k => g k - f k) (fun k => g k + (-1) * f k)) in Z1 by (intros; ring).
          rewrite sumf_add, sumf_mul in Z1. lia. }
        apply SL with (x := i); [assumption| |].
        - intros a Ha. apply sumf_le. intros b _. destruct (inI a b); [|lia]. apply (gservice_le_cost n m s sc Hv (a, b)).
        - apply SL with (x := h); [assumption| |].
          + intros b _. destruct (inI i b); [|lia]. apply (gservice_le_cost n m s sc Hv (i, b)).
          + rewrite Hin. exact G. }
      assert (Z1 : P * sumI c <= sumI (fun i h => fluid i h (Z.of_nat d))).
      { rewrite <- sumI_mul. apply sumI_le. intros a b Ha Hab. unfold fluid, clamp. unfold inI in Hab. apply Z.leb_le in Hab.
        unfold due in Hab. cbn [fst snd] in Hab. fold (et ts a) in Hab. fold (D a) in *. pose proof (HD a Ha).
        replace (Z.min (D a) (Z.max 0 (Z.of_nat d - Z.of_nat (arr s a b)))) with (D a) by lia.
        unfold c. rewrite <- (Hvi a Ha). nia. }
      nia.
    Qed.
  End Level.

  Lemma gfb_complete : forall d i h, (i < n)%nat -> Z.of_nat d = due ts s (i, h) -> gcompleted s sc (i, h) d.
  Proof.
    induction d as [d IH] using (well_founded_induction lt_wf). intros i h Hi E.
    apply level_done; [|assumption|unfold inI; apply Z.leb_le; lia].
    intros i' h' d' Hi' Hd' E'. apply IH; assumption.
  Qed.
End GFB.
