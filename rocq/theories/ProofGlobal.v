(** Global EDF: interference and workload bounds, and the response-time theorem
    behind the BCL and RTA tests. *)
From Coq Require Import ZArith List Bool Lia Wf_nat.
From Verif Require Import Base SpecUni SpecQPA SpecGlobal ProofUni ProofEDF.
Import ListNotations.
Open Scope Z_scope.

(** ** Services *)
Lemma gruns_iff : forall sc j t, gruns sc j t = true <-> In j (sc t).
Proof.
  intros. unfold gruns. rewrite existsb_exists. split.
  - intros [x [H E]]. destruct (job_eqb_spec j x); [subst; assumption|discriminate].
  - intros H. exists j. split; [assumption|]. destruct (job_eqb_spec j j); congruence.
Qed.

Lemma gservice_step : forall sc j t, gservice sc j (S t) = gservice sc j t + b2z (gruns sc j t).
Proof. reflexivity. Qed.

Lemma gservice_window : forall sc j a d,
  gservice sc j (a + d) = gservice sc j a + sumf (fun u => b2z (gruns sc j (a + u))) d.
Proof. intros. unfold gservice. apply sumf_split. Qed.

Lemma gservice_mono : forall sc j a b, (a <= b)%nat -> gservice sc j a <= gservice sc j b.
Proof. intros. apply sumf_mono; [assumption|]. intros. pose proof (b2z_range (gruns sc j k)). lia. Qed.

Lemma gservice_nonneg : forall sc j t, 0 <= gservice sc j t.
Proof. intros. apply sumf_nonneg. intros. pose proof (b2z_range (gruns sc j k)). lia. Qed.

Lemma gcompleted_mono : forall s sc j a b, (a <= b)%nat -> gcompleted s sc j a -> gcompleted s sc j b.
Proof. unfold gcompleted. intros. pose proof (gservice_mono sc j a b H). lia. Qed.

Section Valid.
  Variables (n m : nat) (s : jobseq) (sc : gschedule).
  Hypothesis Hv : gvalid n m s sc.

  Lemma gruns_ready : forall j t, gruns sc j t = true -> (fst j < n)%nat /\ gready s sc j t.
  Proof. intros j t H. apply gruns_iff in H. destruct (Hv t) as [_ [_ H']]. auto. Qed.

  Lemma gservice_le_cost : forall j t, gservice sc j t <= Z.of_nat (cst s (fst j) (snd j)).
  Proof.
    intros j. induction t.
    - cbn. lia.
    - rewrite gservice_step. destruct (gruns sc j t) eqn:E; cbn; [|lia].
      apply gruns_ready in E. destruct E as [_ [_ [E _]]]. lia.
  Qed.

  Lemma gservice_frozen : forall j a b, (a <= b)%nat -> gcompleted s sc j a -> gservice sc j b = gservice sc j a.
  Proof.
    intros j a b H Hc. unfold gcompleted in Hc. pose proof (gservice_le_cost j b). pose proof (gservice_mono sc j a b H). lia.
  Qed.

  Lemma gservice_before_release : forall j t, (t <= rel s (fst j) (snd j))%nat -> gservice sc j t = 0.
  Proof.
    intros j. induction t; intros H; [reflexivity|]. rewrite gservice_step, IHt by lia.
    destruct (gruns sc j t) eqn:E; [|reflexivity]. apply gruns_ready in E. destruct E as [_ [E _]]. lia.
  Qed.

  (** At most one job of a task runs at a time. *)
  Lemma one_per_task : forall t i h h', gruns sc (i, h) t = true -> gruns sc (i, h') t = true -> h = h'.
  Proof.
    assert (A : forall t i h h', gruns sc (i, h) t = true -> gruns sc (i, h') t = true -> (h < h')%nat -> False).
    { intros t i h h' H H' L. apply gruns_ready in H. apply gruns_ready in H'.
      destruct H as [_ [_ [H _]]]. destruct H' as [_ [_ [_ H']]]. specialize (H' h L). cbn in *. unfold gcompleted in H'. cbn in H'. lia. }
    intros t i h h' H H'. destruct (Nat.lt_trichotomy h h') as [L|[L|L]]; [|assumption|]; exfalso; eauto.
  Qed.

  Definition trun (i t : nat) : bool := existsb (fun j => Nat.eqb (fst j) i) (sc t).

  Lemma trun_iff : forall i t, trun i t = true <-> exists h, gruns sc (i, h) t = true.
  Proof.
    intros. unfold trun. rewrite existsb_exists. split.
    - intros [[a h] [H E]]. apply Nat.eqb_eq in E. cbn in E. subst a. exists h. apply gruns_iff. assumption.
    - intros [h H]. apply gruns_iff in H. exists (i, h). split; [assumption|]. apply Nat.eqb_refl.
  Qed.

  Lemma count_tasks : forall l : list job, NoDup (map fst l) -> (forall j, In j l -> (fst j < n)%nat) ->
    Z.of_nat (length l) = sumf (fun i => b2z (existsb (fun j => Nat.eqb (fst j) i) l)) n.
  Proof.
    induction l as [|j l IH]; intros Hn Hl.
    - cbn. symmetry. apply sumf_zero. reflexivity.
    - cbn [map] in Hn. inversion Hn as [|x xs H1 H2]. subst.
      rewrite (sumf_ext _ (fun i => b2z (Nat.eqb (fst j) i) + b2z (existsb (fun j => Nat.eqb (fst j) i) l))).
      + rewrite sumf_add, <- IH; [|assumption|intros; apply Hl; right; assumption].
        rewrite (sumf_single _ n (fst j)); [|apply Hl; left; reflexivity|].
        * rewrite Nat.eqb_refl. cbn [length b2z]. lia.
        * intros k _ Hk. destruct (Nat.eqb_spec (fst j) k); [congruence|reflexivity].
      + intros k _. cbn [existsb]. destruct (Nat.eqb_spec (fst j) k) as [E|E]; [|reflexivity].
        replace (existsb (fun j0 => Nat.eqb (fst j0) k) l) with false; [reflexivity|].
        symmetry. apply not_true_iff_false. intros X. apply existsb_exists in X. destruct X as [y [Hy E']].
        apply Nat.eqb_eq in E'. apply H1. apply in_map_iff. exists y. split; [congruence|assumption].
  Qed.

  Lemma nodup_tasks : forall t, NoDup (map fst (sc t)).
  Proof.
    intros t. destruct (Hv t) as [_ [H _]].
    assert (A : forall l, incl l (sc t) -> NoDup l -> NoDup (map fst l)).
    { induction l as [|j l IH]; intros Hi Hn; [constructor|]. inversion Hn as [|? ? H1 H2]. subst. cbn. constructor.
      - intros X. apply in_map_iff in X. destruct X as [j' [E Hj']]. apply H1.
        replace j with j'; [assumption|]. destruct j as [i h], j' as [i' h']. cbn in E. subst i'. f_equal.
        apply (one_per_task t i); apply gruns_iff; apply Hi; [right; assumption|left; reflexivity].
      - apply IH; [|assumption]. intros x Hx. apply Hi. right. assumption. }
    apply A; [apply incl_refl|assumption].
  Qed.

  Lemma busy_count : forall t, Z.of_nat (length (sc t)) = sumf (fun i => b2z (trun i t)) n.
  Proof. intros. unfold trun. apply count_tasks; [apply nodup_tasks|]. intros j H. apply (proj2 (proj2 (Hv t))). assumption. Qed.
End Valid.

(** ** Selecting the first x slots with a property *)
Lemma first_slots : forall (p : nat -> bool) x n, 0 <= x ->
  sumf (fun d => b2z (p d && (sumf (fun u => b2z (p u)) d <? x))) n = Z.min x (sumf (fun u => b2z (p u)) n).
Proof.
  intros p x n Hx. induction n; [cbn; lia|]. cbn [sumf]. rewrite IHn.
  destruct (p n); cbn [b2z andb]; [|lia]. destruct (Z.ltb_spec (sumf (fun u => b2z (p u)) n) x); cbn [b2z]; lia.
Qed.

(** ** Workload of a task in a window *)

(** Sum over q of min(C, max(0, y - q*T)) for 0 <= C <= T. *)
Definition wl (C T y : Z) : Z := if y <? 0 then 0 else y / T * C + Z.min C (y mod T).

Lemma wl_step : forall C T y, 1 <= T -> T <= y -> wl C T y = wl C T (y - T) + C.
Proof.
  intros C T y HT H. unfold wl. destruct (Z.ltb_spec y 0); [lia|]. destruct (Z.ltb_spec (y - T) 0); [lia|].
  replace (y - T) with (y + (-1) * T) by ring. rewrite Z.div_add, Z.mod_add by lia. ring.
Qed.

Lemma wl_small : forall C T y, 1 <= T -> 0 <= y < T -> wl C T y = Z.min C y.
Proof.
  intros. unfold wl. destruct (Z.ltb_spec y 0); [lia|]. rewrite Z.div_small, Z.mod_small by assumption. lia.
Qed.

Lemma wl_nonneg : forall C T y, 0 <= C -> 1 <= T -> 0 <= wl C T y.
Proof.
  intros. unfold wl. destruct (Z.ltb_spec y 0); [lia|].
  assert (0 <= y / T) by (apply Z.div_pos; lia). pose proof (Z.mod_pos_bound y T ltac:(lia)). nia.
Qed.

Lemma wl_succ : forall C T y, 0 <= C <= T -> 1 <= T -> wl C T y <= wl C T (y + 1) <= wl C T y + 1.
Proof.
  intros C T y HC HT. unfold wl. destruct (Z.ltb_spec y 0); destruct (Z.ltb_spec (y + 1) 0); try lia.
  - assert (y + 1 = 0) as -> by lia. rewrite Z.div_0_l, Z.mod_0_l by lia. lia.
  - pose proof (Z.div_mod y T ltac:(lia)) as E. pose proof (Z.mod_pos_bound y T ltac:(lia)) as B.
    set (q := y / T) in *. set (x := y mod T) in *.
    destruct (Z.eq_dec x (T - 1)) as [Ex|Ex].
    + assert (Eq : (y + 1) / T = q + 1) by (apply div_unique_pos; nia).
      assert (Em : (y + 1) mod T = 0) by (rewrite Z.mod_eq, Eq by lia; nia).
      rewrite Eq, Em. nia.
    + assert (Eq : (y + 1) / T = q) by (apply div_unique_pos; nia).
      assert (Em : (y + 1) mod T = x + 1) by (rewrite Z.mod_eq, Eq by lia; nia).
      rewrite Eq, Em. nia.
Qed.

Lemma wl_lipschitz : forall C T y x, 0 <= C <= T -> 1 <= T -> y <= x -> wl C T y <= wl C T x <= wl C T y + (x - y).
Proof.
  intros C T y x HC HT H. replace x with (y + Z.of_nat (Z.to_nat (x - y))) by lia.
  induction (Z.to_nat (x - y)) as [|k IH].
  - replace (y + Z.of_nat 0) with y by lia. lia.
  - rewrite Nat2Z.inj_succ. unfold Z.succ. pose proof (wl_succ C T (y + Z.of_nat k) HC HT) as X.
    replace (y + (Z.of_nat k + 1)) with (y + Z.of_nat k + 1) by ring. lia.
Qed.

Section Workload.
  Variables (C T rho r : Z) (a : nat -> Z) (A : nat -> Z).
  Hypothesis HC : 0 <= C <= T.
  Hypothesis HT : 1 <= T.
  Hypothesis Hsep : forall h, A h + T <= A (S h).
  Hypothesis Ha : forall h, 0 <= a h <= C.
  Hypothesis Hfin : forall h, a h <= Z.max 0 (A h + rho - r).

  Lemma workload_due : forall K y, (forall h, (h < K)%nat -> a h = 0 \/ A h + rho - r <= y) -> sumf a K <= wl C T y.
  Proof.
    induction K; intros y H.
    - cbn. apply wl_nonneg; lia.
    - cbn [sumf]. destruct (H K ltac:(lia)) as [E|E].
      + rewrite E. specialize (IHK y). rewrite Z.add_0_r. apply IHK. intros. apply H. lia.
      + assert (Hp : forall h, (h < K)%nat -> A h + T <= A K).
        { intros h Hh. assert (G : forall d, A h + T <= A (S h + d)%nat).
          { induction d; [rewrite Nat.add_0_r; apply Hsep|]. specialize (Hsep (S h + d)%nat).
            rewrite Nat.add_succ_r. lia. }
          specialize (G (K - S h)%nat). replace (S h + (K - S h))%nat with K in G by lia. exact G. }
        destruct (Z.le_gt_cases T y) as [L|L].
        * rewrite wl_step by lia. assert (sumf a K <= wl C T (y - T)).
          { apply IHK. intros h Hh. right. specialize (Hp h Hh). lia. }
          specialize (Ha K). lia.
        * assert (Z0 : sumf a K = 0).
          { apply sumf_zero. intros h Hh. specialize (Hp h Hh). specialize (Hfin h). specialize (Ha h). lia. }
          rewrite Z0. specialize (Ha K). specialize (Hfin K).
          destruct (Z.lt_ge_cases y 0).
          -- pose proof (wl_nonneg C T y). lia.
          -- rewrite wl_small by lia. lia.
  Qed.

  Variable L : Z.
  Hypothesis HL : 0 <= L.
  Hypothesis Hrho : C <= rho.
  Hypothesis Hlen : forall h, a h <= L.
  Hypothesis Hrel : forall h, a h <= Z.max 0 (r + L - A h).

  Lemma workload_any : forall K, sumf a K <= wl C T (L + rho - C).
  Proof.
    induction K.
    - cbn. apply wl_nonneg; lia.
    - destruct (Z.eq_dec (a K) 0) as [E|E]; [cbn [sumf]; lia|].
      cbn [sumf]. clear IHK.
      assert (Hp : forall h, (h < K)%nat -> A h + T <= A K).
      { intros h Hh. assert (G : forall d, A h + T <= A (S h + d)%nat).
        { induction d; [rewrite Nat.add_0_r; apply Hsep|]. specialize (Hsep (S h + d)%nat).
          rewrite Nat.add_succ_r. lia. }
        specialize (G (K - S h)%nat). replace (S h + (K - S h))%nat with K in G by lia. exact G. }
      set (y := A K + rho - r). set (X := L + rho - C).
      pose proof (Ha K) as H1. pose proof (Hfin K) as H2. pose proof (Hrel K) as H3. pose proof (Hlen K) as H4.
      destruct (Z.le_gt_cases T y) as [Ly|Ly].
      + assert (P : sumf a K <= wl C T (y - T)).
        { apply workload_due. intros h Hh. right. specialize (Hp h Hh). unfold y. lia. }
        pose proof (wl_step C T y HT Ly) as Sy.
        destruct (Z.le_gt_cases y X) as [c|c].
        * pose proof (wl_lipschitz C T y X HC HT c). lia.
        * pose proof (wl_lipschitz C T X y HC HT ltac:(lia)). unfold y, X in *. lia.
      + assert (Z0 : sumf a K = 0).
        { apply sumf_zero. intros h Hh. specialize (Hp h Hh). specialize (Hfin h). specialize (Ha h). unfold y in Ly. lia. }
        rewrite Z0. assert (0 <= y) by (unfold y; lia).
        pose proof (wl_small C T y HT ltac:(lia)) as Sy.
        destruct (Z.le_gt_cases y X) as [c|c].
        * pose proof (wl_lipschitz C T y X HC HT c). unfold y in *. lia.
        * pose proof (wl_small C T X HT ltac:(unfold X in *; lia)) as SX. unfold X in *. lia.
  Qed.
End Workload.

(** ** Interference: a job that is incomplete for a whole window *)
Section Interference.
  Variables (ts : list etask) (m : nat) (s : jobseq) (sc : gschedule).
  Let n := length ts.
  Hypothesis Hwf : Forall wf_etask ts.
  Hypothesis Hl : legal_edf ts s.
  Hypothesis Hv : gvalid n m s sc.
  Hypothesis Hp : gedf ts m s sc.

  Lemma arr_rel : forall i k, (i < n)%nat -> rel s i k = arr s i k.
  Proof. intros i k H. pose proof (et_legal ts s Hwf Hl i H) as [_ E]. specialize (E k). lia. Qed.

  Lemma sep : forall i h, (i < n)%nat -> Z.of_nat (arr s i h) + e_period (et ts i) <= Z.of_nat (arr s i (S h)).
  Proof. intros i h H. pose proof (et_legal ts s Hwf Hl i H) as [_ E]. apply E. Qed.

  Lemma sep_lt : forall i h h', (i < n)%nat -> (h < h')%nat -> Z.of_nat (arr s i h) + e_period (et ts i) <= Z.of_nat (arr s i h').
  Proof.
    intros i h h' H L. induction L; [apply sep; assumption|].
    pose proof (sep i m0 H). pose proof (et_legal ts s Hwf Hl i H) as [[_ [E _]] _]. lia.
  Qed.

  Lemma arr_ge : forall i h, (i < n)%nat -> (h <= arr s i h)%nat.
  Proof. intros i h H. pose proof (idx_le ts s Hwf Hl i h H) as E. rewrite arr_rel in E by assumption. exact E. Qed.

  Lemma cst_le : forall i h, (i < n)%nat -> Z.of_nat (cst s i h) <= e_cost (et ts i).
  Proof. intros i h H. pose proof (et_legal ts s Hwf Hl i H) as [_ E]. apply E. Qed.

  Variables (k q L : nat).
  Hypothesis Hk : (k < n)%nat.
  Let J : job := (k, q).
  Let r := arr s k q.
  (** predecessors are complete when J arrives, J is incomplete at the end *)
  Hypothesis Hpred : forall h, (h < q)%nat -> gcompleted s sc (k, h) r.
  Hypothesis Hinc : gservice sc J (r + L) < Z.of_nat (cst s k q).

  Lemma J_ready : forall d, (d <= L)%nat -> gready s sc J (r + d).
  Proof.
    intros d H. split; [|split].
    - cbn [fst snd J]. rewrite arr_rel by assumption. fold r. lia.
    - cbn [fst snd J]. pose proof (gservice_mono sc J (r + d) (r + L) ltac:(lia)). lia.
    - intros h Hh. cbn in Hh. cbn [fst J]. eapply gcompleted_mono; [|apply Hpred; assumption]. lia.
  Qed.

  Definition inter (d : nat) : bool := negb (gruns sc J (r + d)).

  Lemma inter_count : sumf (fun d => b2z (inter d)) L = Z.of_nat L - gservice sc J (r + L).
  Proof.
    rewrite gservice_window, (gservice_before_release n m s sc Hv J r).
    - unfold inter. enough (E : sumf (fun d => b2z (negb (gruns sc J (r + d)))) L + sumf (fun u => b2z (gruns sc J (r + u))) L = Z.of_nat L) by lia.
      rewrite <- sumf_add. rewrite (sumf_ext _ (fun _ => 1)); [rewrite sumf_const; lia|].
      intros d _. destruct (gruns sc J (r + d)); reflexivity.
    - cbn [fst snd J]. rewrite arr_rel by assumption. fold r. lia.
  Qed.

  Lemma inter_slot : forall d, (d < L)%nat -> inter d = true ->
    length (sc (r + d)%nat) = m /\ (forall j, In j (sc (r + d)%nat) -> due ts s j <= due ts s J) /\ trun sc k (r + d) = false.
  Proof.
    intros d Hd Hi. unfold inter in Hi. apply negb_true_iff in Hi.
    assert (Hn : ~ In J (sc (r + d)%nat)) by (rewrite <- gruns_iff; congruence).
    pose proof (J_ready d ltac:(lia)) as HR.
    destruct (Hp (r + d)%nat J Hk HR Hn) as [H1 H2]. split; [assumption|]. split; [assumption|].
    apply not_true_iff_false. intros X. apply trun_iff in X. destruct X as [h X].
    destruct (gruns_ready n m s sc Hv _ _ X) as [_ [_ [X2 X3]]]. cbn in X2, X3.
    destruct (Nat.lt_trichotomy h q) as [E|[E|E]].
    - pose proof (gcompleted_mono s sc (k, h) r (r + d) ltac:(lia) (Hpred h E)) as G. unfold gcompleted in G. cbn in G. lia.
    - subst h. unfold J in Hi. congruence.
    - specialize (X3 q E). unfold gcompleted in X3. cbn in X3. destruct HR as [_ [HR _]]. cbn in HR. unfold J in HR. lia.
  Qed.

  (** work of task i by jobs due no later than J while J waits *)
  Definition iwork (i h : nat) : Z := sumf (fun d => b2z (inter d && gruns sc (i, h) (r + d))) L.

  Lemma iwork_range : forall i h, (i < n)%nat -> 0 <= iwork i h <= e_cost (et ts i).
  Proof.
    intros i h Hi. split.
    - apply sumf_nonneg. intros. pose proof (b2z_range (inter k0 && gruns sc (i, h) (r + k0))). lia.
    - pose proof (gservice_le_cost n m s sc Hv (i, h) (r + L)) as E1. pose proof (cst_le i h Hi) as E2.
      pose proof (gservice_nonneg sc (i, h) r) as E3. rewrite gservice_window in E1. cbn [fst snd] in E1.
      assert (iwork i h <= sumf (fun u => b2z (gruns sc (i, h) (r + u))) L).
      { apply sumf_le. intros. destruct (inter k0); cbn [andb]; [lia|]. pose proof (b2z_range (gruns sc (i, h) (r + k0))). cbn [b2z]. lia. }
      lia.
  Qed.

  Lemma iwork_until : forall i h e, (i < n)%nat -> (e < r + L)%nat -> gcompleted s sc (i, h) e -> iwork i h <= Z.max 0 (Z.of_nat e - Z.of_nat r).
  Proof.
    intros i h e Hi He Hc.
    assert (B : iwork i h <= sumf (fun u => b2z (gruns sc (i, h) (r + u))) L).
    { apply sumf_le. intros. destruct (inter k0); cbn [andb]; [lia|]. pose proof (b2z_range (gruns sc (i, h) (r + k0))). cbn [b2z]. lia. }
    assert (E : sumf (fun u => b2z (gruns sc (i, h) (r + u))) L = gservice sc (i, h) (r + L) - gservice sc (i, h) r) by (rewrite gservice_window; lia).
    rewrite E in B. rewrite (gservice_frozen n m s sc Hv (i, h) e (r + L)) in B by (lia || assumption).
    destruct (Nat.le_gt_cases e r) as [Le|Le].
    - pose proof (gservice_mono sc (i, h) e r Le). lia.
    - replace e with (r + (e - r))%nat in B by lia. rewrite gservice_window in B.
      assert (sumf (fun u => b2z (gruns sc (i, h) (r + u))) (e - r) <= Z.of_nat (e - r)).
      { eapply Z.le_trans; [apply sumf_le with (g := fun _ => 1)|rewrite sumf_const; lia].
        intros. pose proof (b2z_range (gruns sc (i, h) (r + k0))). lia. }
      lia.
  Qed.

  Lemma iwork_len : forall i h, iwork i h <= Z.of_nat L.
  Proof using.
    intros. eapply Z.le_trans; [apply sumf_le with (g := fun _ => 1)|rewrite sumf_const; clear; lia].
    intros. apply b2z_range.
  Qed.

  Lemma iwork_rel : forall i h, (i < n)%nat -> iwork i h <= Z.max 0 (Z.of_nat r + Z.of_nat L - Z.of_nat (arr s i h)).
  Proof.
    intros i h Hi. destruct (Nat.le_gt_cases (arr s i h) r) as [Le|Le]; [pose proof (iwork_len i h); lia|].
    destruct (Nat.le_gt_cases (r + L) (arr s i h)) as [Lf|Lf].
    - rewrite Z.max_l by lia. apply Z.eq_le_incl. apply sumf_zero. intros d Hd.
      destruct (gruns sc (i, h) (r + d)) eqn:E; [|rewrite andb_false_r; reflexivity].
      apply (gruns_ready n m s sc Hv) in E. destruct E as [_ [E _]]. cbn in E. rewrite arr_rel in E by assumption. lia.
    - set (g := (arr s i h - r)%nat). replace L with (g + (L - g))%nat at 1 by lia.
      unfold iwork. replace L with (g + (L - g))%nat at 1 by lia. rewrite sumf_split.
      rewrite (sumf_zero _ g).
      + assert (sumf (fun k0 => b2z (inter (g + k0) && gruns sc (i, h) (r + (g + k0)))) (L - g) <= Z.of_nat (L - g)).
        { eapply Z.le_trans; [apply sumf_le with (g := fun _ => 1)|rewrite sumf_const; lia].
          intros. pose proof (b2z_range (inter (g + k0) && gruns sc (i, h) (r + (g + k0)))). lia. }
        lia.
      + intros d Hd. destruct (gruns sc (i, h) (r + d)) eqn:E; [|rewrite andb_false_r; reflexivity].
        apply (gruns_ready n m s sc Hv) in E. destruct E as [_ [E _]]. cbn in E. rewrite arr_rel in E by assumption. unfold g in Hd. lia.
  Qed.

  Lemma iwork_due : forall i h, iwork i h = 0 \/ due ts s (i, h) <= due ts s J.
  Proof.
    intros i h. destruct (Z.le_gt_cases (due ts s (i, h)) (due ts s J)) as [E|E]; [right; assumption|left].
    apply sumf_zero. intros d Hd. destruct (inter d) eqn:Ei; [|reflexivity].
    destruct (gruns sc (i, h) (r + d)) eqn:G; [|reflexivity]. apply gruns_iff in G.
    destruct (inter_slot d Hd Ei) as [_ [H _]]. specialize (H _ G). lia.
  Qed.

  Lemma task_work : forall i, (i < n)%nat ->
    sumf (fun d => b2z (inter d && trun sc i (r + d))) L <= sumf (fun h => iwork i h) (r + L).
  Proof.
    intros i Hi. unfold iwork. rewrite sumf_swap. apply sumf_le. intros d Hd.
    destruct (inter d); cbn [andb]; [|apply sumf_nonneg; cbn [b2z]; intros; lia].
    destruct (trun sc i (r + d)) eqn:E.
    - apply trun_iff in E. destruct E as [h E].
      assert (Hh : (h < r + L)%nat).
      { apply (gruns_ready n m s sc Hv) in E. destruct E as [_ [E _]]. cbn in E. rewrite arr_rel in E by assumption.
        pose proof (arr_ge i h Hi). lia. }
      pose proof (sumf_term_le (fun h => b2z (gruns sc (i, h) (r + d))) (r + L) h Hh
        ltac:(intros; pose proof (b2z_range (gruns sc (i, i0) (r + d))); lia)) as X. cbn beta in X. rewrite E in X. exact X.
    - cbn [b2z]. apply sumf_nonneg. intros. pose proof (b2z_range (gruns sc (i, k0) (r + d))). lia.
  Qed.

  (** If J waits for at least x slots, the other tasks together did m*x work in
      the first x of them, each at most x. *)
  Lemma interference : forall x (W : nat -> Z), 0 <= x -> x <= Z.of_nat L - gservice sc J (r + L) ->
    (forall i, (i < n)%nat -> i <> k -> sumf (fun h => iwork i h) (r + L) <= W i) ->
    Z.of_nat m * x <= sumf (fun i => if Nat.eqb i k then 0 else Z.min (W i) x) n.
  Proof.
    intros x W Hx0 Hx HW. rewrite <- inter_count in Hx.
    set (sel d := inter d && (sumf (fun u => b2z (inter u)) d <? x)).
    assert (Hsel : sumf (fun d => b2z (sel d)) L = x) by (unfold sel; rewrite first_slots by assumption; lia).
    assert (E : Z.of_nat m * x = sumf (fun i => sumf (fun d => b2z (sel d && trun sc i (r + d))) L) n).
    { rewrite <- Hsel at 1. rewrite <- sumf_mul, sumf_swap. apply sumf_ext. intros d Hd.
      unfold sel. destruct (inter d) eqn:Ei; cbn [andb]; [|rewrite sumf_zero; [cbn [b2z]; lia|reflexivity]].
      destruct (sumf (fun u => b2z (inter u)) d <? x); cbn [andb]; [|rewrite sumf_zero; [cbn [b2z]; lia|reflexivity]].
      rewrite <- (busy_count n m s sc Hv). destruct (inter_slot d Hd Ei) as [-> _]. cbn [b2z]. lia. }
    rewrite E. apply sumf_le. intros i Hi. destruct (Nat.eqb_spec i k) as [->|Hik].
    - apply Z.eq_le_incl. apply sumf_zero. intros d Hd. unfold sel. destruct (inter d) eqn:Ei; [|reflexivity].
      destruct (inter_slot d Hd Ei) as [_ [_ ->]]. rewrite andb_false_r. reflexivity.
    - apply Z.min_glb.
      + eapply Z.le_trans; [|apply (HW i Hi Hik)]. eapply Z.le_trans; [|apply task_work; assumption].
        apply sumf_le. intros d _. unfold sel. destruct (inter d); cbn [andb]; [|lia].
        destruct (sumf (fun u => b2z (inter u)) d <? x); cbn [andb b2z]; [lia|]. pose proof (b2z_range (trun sc i (r + d))). lia.
      + apply Z.le_trans with (sumf (fun d => b2z (sel d)) L); [|lia]. apply sumf_le. intros d _. destruct (sel d); cbn [andb b2z]; [|lia].
        pose proof (b2z_range (trun sc i (r + d))). lia.
  Qed.
End Interference.

(** ** Response times *)
Section Response.
  Variables (ts : list etask) (m : nat) (s : jobseq) (sc : gschedule).
  Let n := length ts.
  Hypothesis Hwf : Forall wf_etask ts.
  Hypothesis Hl : legal_edf ts s.
  Hypothesis Hv : gvalid n m s sc.
  Hypothesis Hp : gedf ts m s sc.
  (** response-time bounds *)
  Variable R : nat -> Z.
  Hypothesis HR : forall i, (i < n)%nat -> e_cost (et ts i) <= R i <= e_deadline (et ts i) /\ R i <= e_period (et ts i).

  Definition interfering (i k : nat) : Z :=
    let e := et ts i in
    Z.min (wl (e_cost e) (e_period e) (e_deadline (et ts k) - (e_deadline e - R i)))
          (wl (e_cost e) (e_period e) (R k + R i - e_cost e)).

  Hypothesis Hfix : forall k, (k < n)%nat ->
    let x := R k - e_cost (et ts k) + 1 in
    sumf (fun i => if Nat.eqb i k then 0 else Z.min (interfering i k) x) n < Z.of_nat m * x.

  Lemma response_bound : forall f k q, (k < n)%nat -> Z.of_nat f = Z.of_nat (arr s k q) + R k -> gcompleted s sc (k, q) f.
  Proof.
    induction f as [f IH] using (well_founded_induction lt_wf). intros k q Hk Hf.
    destruct (Z.le_gt_cases (Z.of_nat (cst s k q)) (gservice sc (k, q) f)) as [Hc|Hc]; [exact Hc|exfalso].
    pose proof (HR k Hk) as [[R1 R2] R3]. pose proof (et_legal ts s Hwf Hl k Hk) as [[W1 [W2 W3]] _].
    pose proof (cst_le ts s Hwf Hl k q Hk) as Cq.
    destruct (Z.eq_dec (R k) 0) as [E0|E0].
    { pose proof (gservice_nonneg sc (k, q) f). lia. }
    set (r := arr s k q) in *. set (L := Z.to_nat (R k)). assert (EL : Z.of_nat L = R k) by (unfold L; lia).
    assert (Ef : f = (r + L)%nat) by lia. subst f.
    assert (Hpred : forall h, (h < q)%nat -> gcompleted s sc (k, h) r).
    { intros h Hh. pose proof (sep_lt ts s Hwf Hl k h q Hk Hh) as X. fold r in X.
      apply gcompleted_mono with (a := (arr s k h + L)%nat); [lia|]. apply IH; [lia|assumption|lia]. }
    assert (Hinc : gservice sc (k, q) (r + L) < Z.of_nat (cst s k q)) by exact Hc.
    specialize (Hfix k Hk). cbn zeta in Hfix.
    pose proof (interference ts m s sc Hwf Hl Hv Hp k q L Hk Hpred Hinc (R k - e_cost (et ts k) + 1) (fun i => interfering i k)
      ltac:(lia) ltac:(fold r; lia)) as X.
    cbn beta in X. fold n in X. apply (Z.lt_irrefl (Z.of_nat m * (R k - e_cost (et ts k) + 1))).
    eapply Z.le_lt_trans; [apply X|exact Hfix]. clear X.
    intros i Hi Hik. fold r.
    pose proof (HR i Hi) as [[Q1 Q2] Q3]. pose proof (et_legal ts s Hwf Hl i Hi) as [[V1 [V2 V3]] _].
    set (e := et ts i) in *.
    assert (Hfin : forall h, iwork s sc k q L i h <= Z.max 0 (Z.of_nat (arr s i h) + R i - Z.of_nat r)).
    { intros h. destruct (Z.le_gt_cases (Z.of_nat (r + L)) (Z.of_nat (arr s i h) + R i)) as [G|G].
      - pose proof (iwork_len s sc k q L i h). lia.
      - pose proof (iwork_until ts m s sc Hv k q L Hk i h (arr s i h + Z.to_nat (R i)) Hi) as U. fold r in U.
        specialize (U ltac:(lia)). specialize (U ltac:(apply IH; [lia|assumption|lia])). lia. }
    unfold interfering. fold e. apply Z.min_glb.
    - apply (workload_due (e_cost e) (e_period e) (R i) (Z.of_nat r) (fun h => iwork s sc k q L i h) (fun h => Z.of_nat (arr s i h))).
      + lia.
      + lia.
      + intros h. apply (sep ts s Hwf Hl i h Hi).
      + intros h. eapply iwork_range; eassumption.
      + exact Hfin.
      + intros h _. destruct (iwork_due ts m s sc Hwf Hl Hv Hp k q L Hk Hpred Hinc i h) as [Z0|Z0]; [left; assumption|right].
        unfold due in Z0. cbn [fst snd] in Z0. fold (et ts i) in Z0. fold (et ts k) in Z0. fold e in Z0. fold r in Z0. lia.
    - replace (R k + R i - e_cost e) with (Z.of_nat L + R i - e_cost e) by lia.
      apply (workload_any (e_cost e) (e_period e) (R i) (Z.of_nat r) (fun h => iwork s sc k q L i h) (fun h => Z.of_nat (arr s i h))).
      + lia.
      + lia.
      + intros h. apply (sep ts s Hwf Hl i h Hi).
      + intros h. eapply iwork_range; eassumption.
      + exact Hfin.
      + lia.
      + lia.
      + intros h. apply iwork_len.
      + intros h. eapply iwork_rel; eassumption.
  Qed.
End Response.
