(** Uniprocessor EDF: the processor-demand criterion is sufficient for EDF and
    necessary for any policy. *)
From Coq Require Import ZArith List Bool Lia.
From Verif Require Import Base SpecUni SpecQPA ProofUni ProofGreedy.
Import ListNotations.
Open Scope Z_scope.

(** ** Busy windows of an arbitrary class of jobs *)
Section PBusy.
  Variables (s : jobseq) (sc : schedule) (n : nat) (P : job -> bool).
  Hypothesis Hvalid : valid_schedule n s sc.
  Hypothesis Hn : forall j, P j = true -> (fst j < n)%nat.
  Hypothesis Hidx : forall h k, P (h, k) = true -> (k <= rel s h k)%nat.
  Hypothesis Hpol : forall t j, P j = true -> pending s sc j t -> servesP sc P t = true.

  Definition inc (q h k : nat) : bool :=
    P (h, k) && (Nat.ltb (rel s h k) q) && (service sc (h, k) q <? Z.of_nat (cst s h k)).
  Definition pquiet (q : nat) : bool :=
    negb (existsb (fun h => existsb (fun k => inc q h k) (seq 0 q)) (seq 0 n)).

  Lemma pquiet_true : forall q, pquiet q = true -> forall h k, P (h, k) = true -> (rel s h k < q)%nat -> completed s sc (h, k) q.
  Proof.
    intros q H h k Hh Hr. unfold pquiet in H. apply negb_true_iff in H. pose proof (Hn _ Hh) as Hlt. cbn in Hlt.
    unfold completed. cbn [fst snd]. destruct (Z.le_gt_cases (Z.of_nat (cst s h k)) (service sc (h, k) q)) as [|G]; [assumption|].
    exfalso. assert (E : existsb (fun h => existsb (fun k => inc q h k) (seq 0 q)) (seq 0 n) = true); [|congruence].
    apply existsb_exists. exists h. split; [apply in_seq; lia|].
    apply existsb_exists. exists k. split.
    - apply in_seq. pose proof (Hidx h k Hh). lia.
    - unfold inc. rewrite Hh. rewrite (proj2 (Nat.ltb_lt _ _)) by lia. rewrite (proj2 (Z.ltb_lt _ _)) by lia. reflexivity.
  Qed.

  Lemma pquiet_false : forall q, pquiet q = false ->
    exists h k, P (h, k) = true /\ (rel s h k < q)%nat /\ service sc (h, k) q < Z.of_nat (cst s h k).
  Proof.
    intros q H. unfold pquiet in H. apply negb_false_iff in H. apply existsb_exists in H.
    destruct H as [h [Hh H]]. apply existsb_exists in H. destruct H as [k [Hk H]].
    unfold inc in H. apply andb_prop in H. destruct H as [H1 H2].
    apply andb_prop in H1. destruct H1 as [H0 H1].
    apply Nat.ltb_lt in H1. apply Z.ltb_lt in H2. exists h, k. repeat split; assumption.
  Qed.

  Lemma last_pquiet : forall r, exists t1, (t1 <= r)%nat /\ pquiet t1 = true /\
    forall q, (t1 < q <= r)%nat -> pquiet q = false.
  Proof.
    induction r as [|r IH].
    - exists 0%nat. repeat split; try lia. unfold pquiet. apply negb_true_iff.
      apply not_true_is_false. intro E. apply existsb_exists in E. destruct E as [? [_ E]]. discriminate.
    - destruct (pquiet (S r)) eqn:E.
      + exists (S r). repeat split; try lia. assumption.
      + destruct IH as [t1 [H1 [H2 H3]]]. exists t1. repeat split; try lia; try assumption.
        intros q Hq. destruct (Nat.eq_dec q (S r)) as [->|]; [assumption|]. apply H3. lia.
  Qed.

  Definition in_window (t1 t2 h k : nat) : bool := P (h, k) && Nat.leb t1 (rel s h k) && Nat.ltb (rel s h k) t2.

  (** an incomplete P-job at t2 forces an overloaded window that ends at t2 and starts
      at the last quiet time before its release *)
  Lemma window_from : forall t1 h0 k0 t2, (t1 <= rel s h0 k0)%nat -> pquiet t1 = true -> (forall q, (t1 < q <= rel s h0 k0)%nat -> pquiet q = false) ->
    P (h0, k0) = true -> (rel s h0 k0 < t2)%nat -> service sc (h0, k0) t2 < Z.of_nat (cst s h0 k0) ->
    Z.of_nat (t2 - t1) < sumf (fun h => sumf (fun k => if in_window t1 t2 h k then Z.of_nat (cst s h k) else 0) t2) n.
  Proof.
    intros t1 h0 k0 t2 H1 H2 H3 HP0 Hr0 Hs0. pose proof (pquiet_true _ H2) as Hq.
    assert (Hbusy : forall u, (u < t2 - t1)%nat -> servesP sc P (t1 + u) = true).
    { intros u Hu. destruct (Nat.lt_ge_cases (t1 + u) (rel s h0 k0)) as [G|G].
      - destruct (pquiet_false (S (t1 + u)) (H3 (S (t1 + u)) ltac:(lia))) as [h [k [Hh [Hr Hs]]]].
        apply (Hpol _ (h, k) Hh). split; cbn [fst snd]; [lia|].
        rewrite service_step in Hs. pose proof (b2z_range (runs sc (h, k) (t1 + u))). lia.
      - apply (Hpol _ (h0, k0) HP0). split; cbn [fst snd]; [lia|].
        pose proof (service_mono sc (h0, k0) (t1 + u) t2 ltac:(lia)). lia. }
    assert (Hsum : sumf (fun u => b2z (servesP sc P (t1 + u))) (t2 - t1) = Z.of_nat (t2 - t1)).
    { rewrite (sumf_ext _ (fun _ => 1)); [rewrite sumf_const; lia|]. intros u Hu. rewrite Hbusy by assumption. reflexivity. }
    rewrite (serves_window sc P n t2) in Hsum.
    2:{ intros u Hu j Hj HP. destruct (Hvalid _ _ Hj) as [_ [Hrel _]]. destruct j as [h k]. cbn [fst snd] in *.
        pose proof (Hn _ HP). pose proof (Hidx h k HP). cbn in H. split; lia. }
    replace (t1 + (t2 - t1))%nat with t2 in Hsum by lia.
    rewrite <- Hsum.
    assert (Hone : sumf (fun h => sumf (fun k => if Nat.eqb h h0 && Nat.eqb k k0 then 1 else 0) t2) n = 1).
    { rewrite (sumf_single _ n h0); [|apply (Hn _ HP0)|].
      - rewrite (sumf_single _ t2 k0).
        + rewrite !Nat.eqb_refl. reflexivity.
        + pose proof (Hidx h0 k0 HP0). lia.
        + intros. rewrite (proj2 (Nat.eqb_neq k k0)) by assumption. rewrite andb_false_r. reflexivity.
      - intros. apply sumf_zero. intros. rewrite (proj2 (Nat.eqb_neq k h0)) by assumption. reflexivity. }
    apply Z.lt_le_trans with
      (sumf (fun h => sumf (fun k => if P (h, k) then service sc (h, k) t2 - service sc (h, k) t1 else 0) t2) n + 1); [lia|].
    rewrite <- Hone at 1. rewrite <- sumf_add.
    apply sumf_le. intros h Hh. rewrite <- sumf_add. apply sumf_le. intros k Hk.
    pose proof (service_le_cost _ _ _ Hvalid (h, k) t2) as Hsc. cbn [fst snd] in Hsc.
    pose proof (service_nonneg sc (h, k) t2) as Hsn.
    unfold in_window. destruct (P (h, k)) eqn:EP; cbn [andb].
    - destruct (Nat.leb_spec t1 (rel s h k)) as [G|G]; cbn [andb].
      + rewrite (service_before_release _ _ _ Hvalid (h, k) t1) by assumption.
        destruct (Nat.ltb_spec (rel s h k) t2) as [L|L].
        * destruct (Nat.eqb_spec h h0); destruct (Nat.eqb_spec k k0); cbn [andb]; subst; lia.
        * rewrite (service_before_release _ _ _ Hvalid (h, k) t2) by assumption.
          destruct (Nat.eqb_spec h h0); destruct (Nat.eqb_spec k k0); cbn [andb]; subst; lia.
      + assert (Hc : completed s sc (h, k) t1) by (apply Hq; assumption).
        rewrite (service_frozen _ _ _ Hvalid (h, k) t1 t2) by (try lia; assumption).
        destruct (Nat.eqb_spec h h0); destruct (Nat.eqb_spec k k0); cbn [andb]; subst; lia.
    - destruct (Nat.eqb_spec h h0); destruct (Nat.eqb_spec k k0); cbn [andb]; subst; try lia. congruence.
  Qed.

  Lemma overloaded_window : forall h0 k0 t2, P (h0, k0) = true -> (rel s h0 k0 < t2)%nat ->
    service sc (h0, k0) t2 < Z.of_nat (cst s h0 k0) ->
    exists t1, (t1 <= rel s h0 k0)%nat /\
      Z.of_nat (t2 - t1) < sumf (fun h => sumf (fun k => if in_window t1 t2 h k then Z.of_nat (cst s h k) else 0) t2) n.
  Proof.
    intros h0 k0 t2 HP0 Hr0 Hs0. destruct (last_pquiet (rel s h0 k0)) as [t1 [H1 [H2 H3]]].
    exists t1. split; [assumption|]. apply (window_from t1 h0 k0); assumption.
  Qed.

  (** ... and so is every earlier window of the busy period *)
  Lemma busy_period : forall h0 k0, P (h0, k0) = true -> exists t1, (t1 <= rel s h0 k0)%nat /\
    forall t2, (t1 < t2)%nat -> (t2 <= rel s h0 k0)%nat \/ service sc (h0, k0) t2 < Z.of_nat (cst s h0 k0) ->
      Z.of_nat (t2 - t1) < sumf (fun h => sumf (fun k => if in_window t1 t2 h k then Z.of_nat (cst s h k) else 0) t2) n.
  Proof.
    intros h0 k0 HP0. destruct (last_pquiet (rel s h0 k0)) as [t1 [H1 [H2 H3]]].
    exists t1. split; [assumption|]. intros t2 Ht2 Hc. destruct (Nat.le_gt_cases t2 (rel s h0 k0)) as [L|L].
    - destruct (pquiet_false t2 (H3 t2 ltac:(lia))) as [h [k [Hh [Hr Hs]]]].
      assert (G : (t1 <= rel s h k)%nat).
      { destruct (Nat.le_gt_cases t1 (rel s h k)) as [G|G]; [assumption|]. exfalso.
        pose proof (pquiet_true t1 H2 h k Hh G) as C. apply (completed_mono s sc (h, k) t1 t2) in C; [|lia]. unfold completed in C. cbn [fst snd] in C. lia. }
      apply (window_from t1 h k); try assumption. intros q Hq. apply H3. lia.
    - destruct Hc as [Hc|Hc]; [lia|]. apply (window_from t1 h0 k0); assumption.
  Qed.
End PBusy.

(** ** EDF *)
Definition wf_etask (e : etask) : Prop := 0 <= e_cost e /\ 1 <= e_period e /\ 0 <= e_deadline e.

Section EDF.
  Variables (ts : list etask) (s : jobseq) (sc : schedule).
  Hypothesis Hwf : Forall wf_etask ts.
  Hypothesis Hlegal : legal_edf ts s.

  Definition et (h : nat) : etask := nth h ts (ETask 0 1 0).

  Lemma et_legal : forall h, (h < length ts)%nat -> wf_etask (et h) /\ forall k,
    Z.of_nat (arr s h k) + e_period (et h) <= Z.of_nat (arr s h (S k)) /\ rel s h k = arr s h k /\
    Z.of_nat (cst s h k) <= e_cost (et h).
  Proof.
    intros h Hh. split.
    - rewrite Forall_forall in Hwf. apply Hwf. apply nth_In. assumption.
    - intros k. destruct (Hlegal h (Promise (e_cost (et h)) (e_period (et h)) 0)) with (k := k) as [H1 [H2 [H3 H4]]].
      + apply map_nth_error with (f := fun e => Promise (e_cost e) (e_period e) 0). apply nth_error_nth'. assumption.
      + cbn in *. repeat split; try assumption. lia.
  Qed.

  Lemma idx_le : forall h k, (h < length ts)%nat -> (k <= rel s h k)%nat.
  Proof.
    intros h k Hh. destruct (et_legal h Hh) as [[_ [HT _]] H].
    destruct (H k) as [_ [-> _]]. apply (separated_ge (arr s h) (e_period (et h)) HT). intro k'. apply (proj1 (H k')).
  Qed.

  Lemma jobs_due_cdiv : forall e x, wf_etask e -> Z.max 0 (cdiv (x - e_deadline e + 1) (e_period e)) = jobs_due e x.
  Proof.
    intros e x [HC [HT HD]]. unfold jobs_due. destruct (Z.ltb_spec x (e_deadline e)).
    - assert (cdiv (x - e_deadline e + 1) (e_period e) <= 0) by (apply cdiv_le_iff; lia). lia.
    - pose proof (div_spec (x - e_deadline e) (e_period e) ltac:(lia)) as Hd.
      set (q := (x - e_deadline e) / e_period e) in *.
      rewrite (cdiv_unique _ _ (q + 1)) by nia.
      assert (0 <= q) by nia. lia.
  Qed.

  Lemma edf_sound : valid_schedule (length ts) s sc -> edf_policy ts s sc -> criterion ts ->
    forall j, (fst j < length ts)%nat -> meets ts s sc j.
  Proof.
    intros Hvalid Hpol Hcrit [i k] Hi. cbn [fst] in Hi.
    destruct (et_legal i Hi) as [[HC [HT HD]] Hl]. destruct (Hl k) as [_ [Hrel _]].
    set (D := Z.to_nat (e_deadline (et i))). set (dl := (arr s i k + D)%nat).
    assert (Hdl : due ts s (i, k) = Z.of_nat dl).
    { unfold due, dl, D. cbn [fst snd]. fold (et i). lia. }
    exists dl. split; [lia|]. unfold completed. cbn [fst snd].
    destruct (Z.le_gt_cases (Z.of_nat (cst s i k)) (service sc (i, k) dl)) as [|G]; [assumption|]. exfalso.
    destruct (Nat.eq_dec D 0) as [E0|E0].
    { (* deadline 0: the window of length 0 already has demand *)
      specialize (Hcrit 0 ltac:(lia)).
      assert (e_cost (et i) * jobs_due (et i) 0 <= 0).
      { eapply Z.le_trans; [|exact Hcrit]. apply (zsum_in_le _ (fun e => e_cost e * jobs_due e 0)).
        - intros e He. rewrite Forall_forall in Hwf. destruct (Hwf e He) as [? [? ?]].
          assert (0 <= jobs_due e 0); [|nia]. unfold jobs_due. destruct (Z.ltb_spec 0 (e_deadline e)); [lia|].
          assert (0 <= (0 - e_deadline e) / e_period e) by (apply Z.div_pos; lia). lia.
        - apply nth_In. assumption. }
      unfold jobs_due in H. destruct (Z.ltb_spec 0 (e_deadline (et i))); [unfold D in E0; lia|].
      assert (0 <= (0 - e_deadline (et i)) / e_period (et i)) by (apply Z.div_pos; lia).
      destruct (Hl k) as [_ [_ Hc]]. pose proof (service_nonneg sc (i, k) dl). nia. }
    set (P := fun j : job => Nat.ltb (fst j) (length ts) && (due ts s j <=? Z.of_nat dl)).
    assert (HPn : forall j, P j = true -> (fst j < length ts)%nat).
    { intros j Hj. apply andb_prop in Hj. apply Nat.ltb_lt. apply Hj. }
    assert (HPi : forall a b, P (a, b) = true -> (b <= rel s a b)%nat).
    { intros a b Hj. apply HPn in Hj. apply idx_le. assumption. }
    assert (HPp : forall t j, P j = true -> pending s sc j t -> servesP sc P t = true).
    { intros t j Hj Hp. destruct (Hpol t j (HPn j Hj) Hp) as [j' [E1 E2]]. unfold servesP. rewrite E1.
      destruct (Hvalid _ _ E1) as [Hj' _]. unfold P. rewrite (proj2 (Nat.ltb_lt _ _) Hj'). cbn [andb].
      apply Z.leb_le. apply andb_prop in Hj. destruct Hj as [_ Hj]. apply Z.leb_le in Hj. lia. }
    assert (HP0 : P (i, k) = true).
    { unfold P. cbn [fst]. rewrite (proj2 (Nat.ltb_lt _ _) Hi), Hdl, Z.leb_refl. reflexivity. }
    destruct (overloaded_window s sc (length ts) P Hvalid HPn HPi HPp i k dl HP0) as [t1 [Ht1 Hw]];
      [unfold dl; lia|assumption|].
    specialize (Hcrit (Z.of_nat (dl - t1)) ltac:(lia)).
    assert (Hb : sumf (fun h => sumf (fun k => if in_window s P t1 dl h k then Z.of_nat (cst s h k) else 0) dl) (length ts)
       <= zsum (map (fun e => e_cost e * jobs_due e (Z.of_nat (dl - t1))) ts)); [|lia].
    rewrite (zsum_map_nth _ (ETask 0 1 0)). apply sumf_le. intros a Ha. fold (et a).
    destruct (et_legal a Ha) as [Hwa Hla]. pose proof Hwa as [HCa [HTa HDa]].
    apply Z.le_trans with (sumf (fun b => e_cost (et a) *
      b2z ((Z.of_nat t1 <=? Z.of_nat (arr s a b)) && (Z.of_nat (arr s a b) <? Z.of_nat dl - e_deadline (et a) + 1))) dl).
    - apply sumf_le. intros b Hb. destruct (Hla b) as [_ [Hr Hc]].
      match goal with |- context [b2z ?x] => pose proof (b2z_range x) end.
      destruct (in_window s P t1 dl a b) eqn:EW; [|nia].
      unfold in_window in EW. apply andb_prop in EW. destruct EW as [EW E3]. apply andb_prop in EW. destruct EW as [E1 E2].
      apply andb_prop in E1. destruct E1 as [_ E1]. apply Z.leb_le in E1. apply Nat.leb_le in E2.
      unfold due in E1. cbn [fst snd] in E1. fold (et a) in E1.
      rewrite (proj2 (Z.leb_le _ _)) by lia. rewrite (proj2 (Z.ltb_lt _ _)) by lia. cbn [andb b2z]. lia.
    - rewrite sumf_mul. apply Z.mul_le_mono_nonneg_l; [assumption|].
      eapply Z.le_trans; [apply count_separated with (T := e_period (et a)); [lia|intro b; apply (proj1 (Hla b))]|].
      rewrite <- jobs_due_cdiv by assumption. 
      replace (Z.of_nat dl - e_deadline (et a) + 1 - Z.of_nat t1) with (Z.of_nat (dl - t1) - e_deadline (et a) + 1); [lia|].
      rewrite Hrel in Ht1. unfold dl. lia.
  Qed.
End EDF.

(** ** Necessity *)
Definition synchronous (ts : list etask) : jobseq := critical (map (fun e => Promise (e_cost e) (e_period e) 0) ts).

Lemma synchronous_spec : forall ts h k, Forall wf_etask ts -> (h < length ts)%nat ->
  let e := nth h ts (ETask 0 1 0) in
  Z.of_nat (arr (synchronous ts) h k) = Z.of_nat k * e_period e /\ rel (synchronous ts) h k = arr (synchronous ts) h k /\
  Z.of_nat (cst (synchronous ts) h k) = e_cost e.
Proof.
  intros ts h k Hwf Hh e.
  assert (Hm : max_jitter (map (fun e => Promise (e_cost e) (e_period e) 0) ts) = 0).
  { unfold max_jitter. clear. induction ts as [|a l IH]; [reflexivity|]. cbn. rewrite IH. reflexivity. }
  unfold synchronous, critical. cbn [arr rel cst]. rewrite Hm.
  rewrite (nth_indep _ (Promise 0 1 0) ((fun e => Promise (e_cost e) (e_period e) 0) (ETask 0 1 0))) by (rewrite map_length; assumption).
  rewrite (map_nth (fun e => Promise (e_cost e) (e_period e) 0)). fold e. cbn [pr_cost pr_period pr_jitter].
  assert (wf_etask e) as [HC [HT HD]] by (rewrite Forall_forall in Hwf; apply Hwf, nth_In; assumption).
  repeat split; try lia.
Qed.

Lemma synchronous_legal : forall ts, Forall wf_etask ts -> legal_edf ts (synchronous ts).
Proof.
  intros ts Hwf i p Hp k. assert (Hi : (i < length ts)%nat).
  { rewrite <- (map_length (fun e => Promise (e_cost e) (e_period e) 0)). apply nth_error_Some. congruence. }
  assert (p = Promise (e_cost (nth i ts (ETask 0 1 0))) (e_period (nth i ts (ETask 0 1 0))) 0).
  { rewrite (map_nth_error (fun e => Promise (e_cost e) (e_period e) 0) i ts (nth_error_nth' ts (ETask 0 1 0) Hi)) in Hp.
    congruence. }
  subst p. cbn [pr_cost pr_period pr_jitter].
  pose proof (synchronous_spec ts i k Hwf Hi) as [A1 [A2 A3]].
  pose proof (synchronous_spec ts i (S k) Hwf Hi) as [B1 _]. rewrite Nat2Z.inj_succ in B1. repeat split; lia.
Qed.

Section Necessity.
  Variables (ts : list etask) (sc : schedule) (x : Z).
  Hypothesis Hwf : Forall wf_etask ts.
  Hypothesis Hvalid : valid_schedule (length ts) (synchronous ts) sc.
  Hypothesis Hx : 0 <= x.
  Hypothesis Hover : x < zsum (map (fun e => e_cost e * jobs_due e x) ts).

  Let s := synchronous ts.

  Definition okb (h k : nat) : bool :=
    (x <? due ts s (h, k)) || (Z.of_nat (cst s h k) <=? service sc (h, k) (Z.to_nat (due ts s (h, k)))).

  Lemma some_miss : exists j, (fst j < length ts)%nat /\ ~ meets ts s sc j.
  Proof.
    set (K := S (Z.to_nat x)).
    destruct (forallb (fun h => forallb (okb h) (seq 0 K)) (seq 0 (length ts))) eqn:E.
    - exfalso. rewrite forallb_forall in E.
      assert (Hok : forall h k, (h < length ts)%nat -> (k < K)%nat -> due ts s (h, k) <= x ->
                    Z.of_nat (cst s h k) <= service sc (h, k) (Z.to_nat x)).
      { intros h k Hh Hk Hd. specialize (E h ltac:(apply in_seq; lia)). rewrite forallb_forall in E.
        specialize (E k ltac:(apply in_seq; lia)). unfold okb in E. apply orb_prop in E. destruct E as [E|E].
        - apply Z.ltb_lt in E. lia.
        - apply Z.leb_le in E. eapply Z.le_trans; [exact E|]. apply service_mono. lia. }
      pose proof (serves_window sc (fun j => Nat.ltb (fst j) (length ts)) (length ts) K 0 (Z.to_nat x)) as Hsum.
      assert (Hle : sumf (fun u => b2z (servesP sc (fun j => Nat.ltb (fst j) (length ts)) (0 + u))) (Z.to_nat x) <= x).
      { apply Z.le_trans with (sumf (fun _ => 1) (Z.to_nat x)); [apply sumf_le; intros; apply b2z_range|rewrite sumf_const; lia]. }
      rewrite Hsum in Hle.
      2:{ intros u Hu [h k] Hj HP. cbn [fst snd] in *. apply Nat.ltb_lt in HP. split; [assumption|].
          destruct (Hvalid _ _ Hj) as [_ [Hr _]]. cbn [fst snd] in Hr.
          pose proof (idx_le ts (synchronous ts) Hwf (synchronous_legal ts Hwf) h k HP). unfold K. lia. }
      clear Hsum.
      assert (Hge : zsum (map (fun e => e_cost e * jobs_due e x) ts) <=
        sumf (fun h => sumf (fun k => if Nat.ltb (fst (h, k)) (length ts) then service sc (h, k) (0 + Z.to_nat x) - service sc (h, k) 0 else 0) K) (length ts)); [|lia].
      rewrite (zsum_map_nth _ (ETask 0 1 0)). apply sumf_le. intros h Hh. cbn [fst].
      rewrite (proj2 (Nat.ltb_lt _ _) Hh). set (e := nth h ts (ETask 0 1 0)).
      assert (wf_etask e) as [HC [HT HD]] by (rewrite Forall_forall in Hwf; apply Hwf, nth_In; assumption).
      assert (Hs0 : forall k, service sc (h, k) 0 = 0) by reflexivity.
      assert (Hm : 0 <= jobs_due e x <= Z.of_nat K /\ forall k, Z.of_nat k < jobs_due e x -> Z.of_nat k * e_period e + e_deadline e <= x).
      { unfold jobs_due. destruct (Z.ltb_spec x (e_deadline e)); [split; [lia|intros; lia]|].
        pose proof (div_spec (x - e_deadline e) (e_period e) ltac:(lia)) as Hd.
        set (q := (x - e_deadline e) / e_period e) in *.
        assert (0 <= q) by nia. assert (q <= x) by nia. unfold K. split; [lia|]. intros k Hk. nia. }
      destruct Hm as [Hm1 Hm2].
      replace K with (Z.to_nat (jobs_due e x) + (K - Z.to_nat (jobs_due e x)))%nat by lia. rewrite sumf_split.
      match goal with |- _ <= ?a + ?b => assert (0 <= b) by (apply sumf_nonneg; intros; rewrite Hs0; match goal with |- 0 <= service sc ?j ?t - 0 => pose proof (service_nonneg sc j t) end; lia) end.
      apply Z.le_trans with (sumf (fun _ => e_cost e) (Z.to_nat (jobs_due e x))); [rewrite sumf_const; nia|].
      match goal with |- _ <= ?a + ?b => apply Z.le_trans with a; [|lia] end.
      apply sumf_le. intros k Hk. rewrite Hs0. 
      pose proof (synchronous_spec ts h k Hwf Hh) as HS. cbv zeta in HS. fold e s in HS. destruct HS as [A1 [A2 A3]].
      specialize (Hok h k Hh ltac:(lia)). unfold due in Hok. cbn [fst snd] in Hok. fold e in Hok.
      specialize (Hm2 k ltac:(lia)). specialize (Hok ltac:(lia)).
      cbn [Nat.add]. lia.
    - assert (Hex : exists h k, (h < length ts)%nat /\ okb h k = false).
      { destruct (existsb (fun h => existsb (fun k => negb (okb h k)) (seq 0 K)) (seq 0 (length ts))) eqn:F.
        - apply existsb_exists in F. destruct F as [h [Hh F]]. apply existsb_exists in F. destruct F as [k [Hk F]].
          exists h, k. split; [apply in_seq in Hh; lia|]. apply negb_true_iff in F. assumption.
        - exfalso. assert (forallb (fun h => forallb (okb h) (seq 0 K)) (seq 0 (length ts)) = true); [|congruence].
          apply forallb_forall. intros h Hh. apply forallb_forall. intros k Hk.
          destruct (okb h k) eqn:G; [reflexivity|]. exfalso.
          assert (existsb (fun h => existsb (fun k => negb (okb h k)) (seq 0 K)) (seq 0 (length ts)) = true); [|congruence].
          apply existsb_exists. exists h. split; [assumption|]. apply existsb_exists. exists k. split; [assumption|].
          rewrite G. reflexivity. }
      destruct Hex as [h [k [Hh Hf]]]. exists (h, k). split; [assumption|]. intros [q [Hq Hc]].
      unfold okb in Hf. apply orb_false_iff in Hf. destruct Hf as [_ Hf]. apply Z.leb_gt in Hf.
      unfold completed in Hc. cbn [fst snd] in Hc.
      assert (service sc (h, k) q <= service sc (h, k) (Z.to_nat (due ts s (h, k)))) by (apply service_mono; lia). lia.
  Qed.
End Necessity.

(** ** EDF schedules exist *)
Fixpoint argmin (key : job -> Z) (l : list job) : option job :=
  match l with
  | [] => None
  | j :: r => match argmin key r with
              | None => Some j
              | Some j' => if key j' <? key j then Some j' else Some j
              end
  end.

Lemma argmin_spec : forall key l, match argmin key l with
  | None => l = []
  | Some j => In j l /\ forall j', In j' l -> key j <= key j'
  end.
Proof.
  induction l as [|x l IH]; cbn; [reflexivity|]. destruct (argmin key l) as [y|].
  - destruct IH as [H1 H2]. destruct (Z.ltb_spec (key y) (key x)).
    + split; [right; assumption|]. intros j' [<-|Hj]; [lia|]. apply H2. assumption.
    + split; [left; reflexivity|]. intros j' [<-|Hj]; [lia|]. specialize (H2 j' Hj). lia.
  - subst l. split; [left; reflexivity|]. intros j' [<-|[]]. lia.
Qed.

Definition pick_edf (n : nat) (key : job -> Z) (s : jobseq) (t : nat) (f : job -> Z) : option job :=
  argmin key (filter (pendingb s t f) (candidates n t)).
Definition edf_schedule (ts : list etask) (s : jobseq) : schedule := greedy (pick_edf (length ts) (due ts s) s).

Lemma filter_ext' : forall A (P Q : A -> bool) l, (forall x, P x = Q x) -> filter P l = filter Q l.
Proof. induction l; intros H; cbn; [reflexivity|]. rewrite H, IHl by assumption. reflexivity. Qed.

Lemma edf_schedule_eq : forall ts s t, edf_schedule ts s t =
  argmin (due ts s) (filter (pendingb s t (fun j => service (edf_schedule ts s) j t)) (candidates (length ts) t)).
Proof.
  intros. unfold edf_schedule. rewrite greedy_pick_ext; [reflexivity|].
  intros. unfold pick_edf. f_equal. apply filter_ext'. intros. unfold pendingb. rewrite H. reflexivity.
Qed.

Lemma edf_schedule_ok : forall ts s, Forall wf_etask ts -> legal_edf ts s ->
  valid_schedule (length ts) s (edf_schedule ts s) /\ edf_policy ts s (edf_schedule ts s).
Proof.
  intros ts s Hwf Hl. split.
  - intros t j Hj. rewrite edf_schedule_eq in Hj.
    match type of Hj with argmin ?k ?l = _ => pose proof (argmin_spec k l) as H end. rewrite Hj in H.
    destruct H as [H _]. apply filter_In in H. destruct H as [H1 H2]. apply in_candidates in H1.
    split; [apply H1|]. apply pendingb_iff. assumption.
  - intros t j Hj Hp. pose proof (edf_schedule_eq ts s t) as E.
    match type of E with _ = argmin ?k ?l => pose proof (argmin_spec k l) as H; assert (Hin : In j l) end.
    { apply filter_In. split; [|apply pendingb_iff; assumption]. apply in_candidates. split; [assumption|].
      destruct j as [h k]. destruct Hp as [Hr _]. cbn [fst snd] in *. pose proof (idx_le ts s Hwf Hl h k Hj). lia. }
    rewrite <- E in H. destruct (edf_schedule ts s t) as [j'|].
    + exists j'. split; [reflexivity|]. apply H. assumption.
    + rewrite H in Hin. destruct Hin.
Qed.
