(** Proofs about the task model. *)
From Coq Require Import ZArith QArith List Bool Lia Permutation Sorted SetoidList Lqa.
From Verif Require Import Base ModelTasks SpecTasks.
Import ListNotations.
Open Scope Z_scope.

(** ** Job sequences *)
Lemma legal_tail : forall C T j js, legal C T (j :: js) -> legal C T js.
Proof. intros C T j js H. inv H; [constructor|assumption]. Qed.

Lemma legal_head_cost : forall C T j js, legal C T (j :: js) -> 0 <= sj_cost j <= C.
Proof. intros C T j js H. inv H; assumption. Qed.

Lemma legal_later : forall C T j js, 0 < T -> legal C T (j :: js) ->
  forall k, In k js -> sj_arr j + T <= sj_arr k.
Proof.
  intros C T j js HT H. remember (j :: js) as l eqn:E. revert j js E.
  induction H as [|j0 Hc|j0 k0 js0 Hc Hs H IH]; intros j js E k Hk; inv E.
  - destruct Hk.
  - destruct Hk as [->|Hk]; [assumption|].
    specialize (IH _ _ eq_refl k Hk). lia.
Qed.

Lemma work_ext : forall p q js, (forall j, In j js -> p j = q j) -> work p js = work q js.
Proof.
  induction js; intros H; simpl; [reflexivity|].
  rewrite (H a (or_introl eq_refl)), (IHjs (fun j Hj => H j (or_intror Hj))). reflexivity.
Qed.

Definition in_win (a b : Z) (j : sjob) : bool := (a <=? sj_arr j) && (sj_arr j <=? b).

Lemma work_window : forall C T b js, 0 < T -> 0 <= C -> legal C T js ->
  forall a, work (in_win a b) js <= Z.max 0 ((b - a) / T + 1) * C.
Proof.
  intros C T b js HT HC. induction js as [|j js IH]; intros Hl a.
  - simpl. nia.
  - simpl. pose proof (legal_head_cost _ _ _ _ Hl) as Hc.
    specialize (IH (legal_tail _ _ _ _ Hl)).
    destruct (in_win a b j) eqn:E.
    + unfold in_win in E. apply andb_prop in E. destruct E as [E1 E2].
      apply Z.leb_le in E1. apply Z.leb_le in E2.
      rewrite (work_ext (in_win a b) (in_win (sj_arr j + T) b)).
      2:{ intros k Hk. pose proof (legal_later _ _ _ _ HT Hl k Hk). unfold in_win.
          f_equal. rewrite !(proj2 (Z.leb_le _ _)) by lia. reflexivity. }
      specialize (IH (sj_arr j + T)).
      assert (Hd : (b - (sj_arr j + T)) / T = (b - sj_arr j) / T - 1).
      { replace (b - (sj_arr j + T)) with (b - sj_arr j + (-1) * T) by lia.
        rewrite Z.div_add by lia. lia. }
      rewrite Hd in IH.
      assert (0 <= (b - sj_arr j) / T) by (apply Z.div_pos; lia).
      assert ((b - sj_arr j) / T <= (b - a) / T) by (apply Z.div_le_mono; lia).
      rewrite Z.max_r in IH by lia. rewrite Z.max_r by lia. nia.
    + specialize (IH a). lia.
Qed.

Lemma dbf_bounds_demand : forall t js t0 len,
  0 < t_period t -> 0 < t_deadline t -> 0 <= t_cost t ->
  legal (t_cost t) (t_period t) js ->
  demand (t_deadline t) t0 len js <= dbf t len.
Proof.
  intros t js t0 len HT HD HC Hl. unfold demand.
  rewrite (work_ext _ (in_win t0 (t0 + len - t_deadline t))).
  2:{ intros j _. unfold in_win. f_equal.
      destruct (Z.leb_spec (sj_arr j + t_deadline t) (t0 + len));
      destruct (Z.leb_spec (sj_arr j) (t0 + len - t_deadline t)); try reflexivity; lia. }
  pose proof (work_window _ _ (t0 + len - t_deadline t) js HT HC Hl t0) as H.
  replace (t0 + len - t_deadline t - t0) with (len - t_deadline t) in H by lia.
  unfold dbf. destruct (Z.leb_spec len 0).
  - assert ((len - t_deadline t) / t_period t < 0) by (apply Z.div_lt_upper_bound; lia).
    rewrite Z.max_l in H by lia. lia.
  - destruct (Z.le_gt_cases 0 ((len - t_deadline t) / t_period t + 1)); nia.
Qed.

Lemma rbf_bounds_requests : forall t js t0 len,
  0 < t_period t -> 0 <= t_cost t -> legal (t_cost t) (t_period t) js ->
  requested t0 len js <= rbf t len.
Proof.
  intros t js t0 len HT HC Hl. unfold requested.
  rewrite (work_ext _ (in_win t0 (t0 + len))) by reflexivity.
  pose proof (work_window _ _ (t0 + len) js HT HC Hl t0) as H.
  replace (t0 + len - t0) with len in H by lia.
  unfold rbf. destruct (Z.ltb_spec len 0).
  - assert (len / t_period t < 0) by (apply Z.div_lt_upper_bound; lia).
    rewrite Z.max_l in H by lia. lia.
  - assert (0 <= len / t_period t) by (apply Z.div_pos; lia). rewrite Z.max_r in H by lia. lia.
Qed.

(** Periodic job sequence: [n] jobs from [t0], full cost. *)
Fixpoint periodic (C T t0 : Z) (n : nat) : list sjob :=
  match n with O => [] | S k => SJob t0 C :: periodic C T (t0 + T) k end.

Lemma periodic_legal : forall C T n t0, 0 <= C -> legal C T (periodic C T t0 n).
Proof.
  induction n as [|n IH]; intros t0 HC; simpl; [constructor|].
  specialize (IH (t0 + T) HC). destruct n; simpl in *.
  - constructor. simpl. lia.
  - constructor; simpl; try lia. assumption.
Qed.

Lemma periodic_work : forall C T b n t0 a, 0 < T -> a <= t0 ->
  t0 + (Z.of_nat n - 1) * T <= b ->
  work (in_win a b) (periodic C T t0 n) = Z.of_nat n * C.
Proof.
  induction n as [|n IH]; intros t0 a HT Ha Hb; simpl work; [lia|].
  rewrite Nat2Z.inj_succ in Hb.
  rewrite IH; [|lia|lia|nia].
  unfold in_win. cbn [sj_arr sj_cost]. rewrite (proj2 (Z.leb_le _ _)) by lia.
  rewrite (proj2 (Z.leb_le _ _)) by nia. cbn [andb]. lia.
Qed.

Lemma dbf_tight : forall t t0 len,
  0 < t_period t -> 0 < t_deadline t -> 0 <= t_cost t ->
  exists js, legal (t_cost t) (t_period t) js /\ demand (t_deadline t) t0 len js = dbf t len.
Proof.
  intros t t0 len HT HD HC.
  set (n := Z.to_nat (Z.max 0 ((len - t_deadline t) / t_period t + 1))).
  exists (periodic (t_cost t) (t_period t) t0 n). split; [apply periodic_legal; assumption|].
  unfold demand.
  rewrite (work_ext _ (in_win t0 (t0 + len - t_deadline t))).
  2:{ intros j _. unfold in_win. f_equal.
      destruct (Z.leb_spec (sj_arr j + t_deadline t) (t0 + len));
      destruct (Z.leb_spec (sj_arr j) (t0 + len - t_deadline t)); try reflexivity; lia. }
  pose proof (div_spec (len - t_deadline t) (t_period t) HT) as Hd.
  destruct (Z.le_gt_cases 1 ((len - t_deadline t) / t_period t + 1)) as [G|G].
  - rewrite periodic_work; [|lia|lia|].
    + unfold n. rewrite Z2Nat.id by lia. unfold dbf.
      destruct (Z.leb_spec len 0); [nia|]. nia.
    + unfold n. rewrite Z2Nat.id by lia. rewrite Z.max_r by lia. nia.
  - assert (n = 0%nat) as -> by (unfold n; lia). simpl. unfold dbf.
    destruct (Z.leb_spec len 0); [reflexivity|]. nia.
Qed.

Lemma rbf_tight : forall t t0 len,
  0 < t_period t -> 0 <= t_cost t ->
  exists js, legal (t_cost t) (t_period t) js /\ requested t0 len js = rbf t len.
Proof.
  intros t t0 len HT HC.
  set (n := Z.to_nat (Z.max 0 (len / t_period t + 1))).
  exists (periodic (t_cost t) (t_period t) t0 n). split; [apply periodic_legal; assumption|].
  unfold requested. rewrite (work_ext _ (in_win t0 (t0 + len))) by reflexivity.
  pose proof (div_spec len (t_period t) HT) as Hd. unfold rbf.
  destruct (Z.ltb_spec len 0).
  - assert (n = 0%nat) as -> by (unfold n; nia). reflexivity.
  - assert (0 <= len / t_period t) by nia.
    rewrite periodic_work; [|lia|lia|].
    + unfold n. rewrite Z2Nat.id by lia. lia.
    + unfold n. rewrite Z2Nat.id by lia. rewrite Z.max_r by lia. nia.
Qed.

(** task systems *)
Lemma ts_dbf_bounds_demand : forall ts seqs t0 len,
  Forall (fun t => 0 < t_period t /\ 0 < t_deadline t /\ 0 <= t_cost t) ts ->
  Forall2 (fun t js => legal (t_cost t) (t_period t) js) ts seqs ->
  zsum (map (fun p => demand (t_deadline (fst p)) t0 len (snd p)) (combine ts seqs)) <= ts_dbf ts len.
Proof.
  intros ts seqs t0 len Hv H. unfold ts_dbf. induction H; simpl; [lia|].
  inv Hv. specialize (IHForall2 H4). destruct H3 as [? [? ?]].
  pose proof (dbf_bounds_demand x y t0 len ltac:(assumption) ltac:(assumption) ltac:(assumption) H). lia.
Qed.

Lemma ts_dbf_tight : forall ts t0 len,
  Forall (fun t => 0 < t_period t /\ 0 < t_deadline t /\ 0 <= t_cost t) ts ->
  exists seqs, Forall2 (fun t js => legal (t_cost t) (t_period t) js) ts seqs /\
  zsum (map (fun p => demand (t_deadline (fst p)) t0 len (snd p)) (combine ts seqs)) = ts_dbf ts len.
Proof.
  intros ts t0 len Hv. induction Hv as [|t ts [? [? ?]] Hv IH].
  - exists []. split; [constructor|reflexivity].
  - destruct IH as [seqs [HF Hs]].
    destruct (dbf_tight t t0 len) as [js [Hl Hd]]; try assumption.
    exists (js :: seqs). split; [constructor; assumption|].
    unfold ts_dbf in *. simpl. lia.
Qed.

Lemma ts_rbf_bounds_requests : forall ts seqs t0 len,
  Forall (fun t => 0 < t_period t /\ 0 <= t_cost t) ts ->
  Forall2 (fun t js => legal (t_cost t) (t_period t) js) ts seqs ->
  zsum (map (requested t0 len) seqs) <= ts_rbf ts len.
Proof.
  intros ts seqs t0 len Hv H. unfold ts_rbf. induction H; simpl; [lia|].
  inv Hv. specialize (IHForall2 H4). destruct H3 as [? ?].
  pose proof (rbf_bounds_requests x y t0 len ltac:(assumption) ltac:(assumption) H). lia.
Qed.

Lemma ts_rbf_tight : forall ts t0 len,
  Forall (fun t => 0 < t_period t /\ 0 <= t_cost t) ts ->
  exists seqs, Forall2 (fun t js => legal (t_cost t) (t_period t) js) ts seqs /\
  zsum (map (requested t0 len) seqs) = ts_rbf ts len.
Proof.
  intros ts t0 len Hv. induction Hv as [|t ts [? ?] Hv IH].
  - exists []. split; [constructor|reflexivity].
  - destruct IH as [seqs [HF Hs]].
    destruct (rbf_tight t t0 len) as [js [Hl Hd]]; try assumption.
    exists (js :: seqs). split; [constructor; assumption|].
    unfold ts_rbf in *. simpl. lia.
Qed.

(** monotonicity, used elsewhere *)
Lemma dbf_nonneg : forall t x, 0 <= dbf t x.
Proof. intros. unfold dbf. destruct (x <=? 0); lia. Qed.

Lemma dbf_mono : forall t x y, 0 < t_period t -> 0 <= t_cost t -> x <= y -> dbf t x <= dbf t y.
Proof.
  intros t x y HT HC H. unfold dbf.
  destruct (Z.leb_spec x 0); destruct (Z.leb_spec y 0); try lia.
  assert ((x - t_deadline t) / t_period t <= (y - t_deadline t) / t_period t)
    by (apply Z.div_le_mono; lia). nia.
Qed.

Lemma rbf_mono : forall t x y, 0 < t_period t -> 0 <= t_cost t -> x <= y -> rbf t x <= rbf t y.
Proof.
  intros t x y HT HC H. unfold rbf.
  destruct (Z.ltb_spec x 0); destruct (Z.ltb_spec y 0); try lia.
  - assert (0 <= y / t_period t) by (apply Z.div_pos; lia). nia.
  - assert (x / t_period t <= y / t_period t) by (apply Z.div_le_mono; lia). nia.
Qed.

(** ** maxjobs *)
Lemma completes_tail : forall T R j js, completes T R (j :: js) -> completes T R js.
Proof. intros T R j js H. inv H; [constructor|assumption]. Qed.

Lemma completes_later : forall T R j js, 0 < T -> completes T R (j :: js) ->
  forall k, In k js -> cj_arr j + T <= cj_arr k.
Proof.
  intros C T j js HT H. remember (j :: js) as l eqn:E. revert j js E.
  induction H as [|j0 Hc|j0 k0 js0 Hc Hs H IH]; intros j js E k Hk; inv E.
  - destruct Hk.
  - destruct Hk as [->|Hk]; [assumption|].
    specialize (IH _ _ eq_refl k Hk). lia.
Qed.

Lemma completes_in : forall T R js, completes T R js ->
  forall k, In k js -> cj_arr k < cj_done k <= cj_arr k + R.
Proof.
  induction 1; intros x Hx; [destruct Hx| |].
  - destruct Hx as [->|[]]; assumption.
  - destruct Hx as [->|Hx]; [assumption|auto].
Qed.

Lemma count_window : forall T R b js, 0 < T -> completes T R js ->
  forall a, Z.of_nat (length (filter (fun j => (a <? cj_arr j) && (cj_arr j <=? b)) js))
     <= Z.max 0 (cdiv (b - a) T).
Proof.
  intros T R b js HT. induction js as [|j js IH]; intros Hl a.
  - simpl. lia.
  - simpl. specialize (IH (completes_tail _ _ _ _ Hl)).
    destruct ((a <? cj_arr j) && (cj_arr j <=? b)) eqn:E.
    + apply andb_prop in E. destruct E as [E1 E2].
      apply Z.ltb_lt in E1. apply Z.leb_le in E2.
      rewrite (filter_ext_in _ (fun k => (cj_arr j + T - 1 <? cj_arr k) && (cj_arr k <=? b))).
      2:{ intros k Hk. pose proof (completes_later _ _ _ _ HT Hl k Hk).
          f_equal. rewrite !(proj2 (Z.ltb_lt _ _)) by lia. reflexivity. }
      specialize (IH (cj_arr j + T - 1)).
      assert (Hd : cdiv (b - (cj_arr j + T - 1)) T = cdiv (b - (cj_arr j - 1)) T - 1).
      { replace (b - (cj_arr j + T - 1)) with (b - (cj_arr j - 1) + (-1) * T) by lia.
        rewrite cdiv_add_mul by lia. lia. }
      rewrite Hd in IH.
      assert (1 <= cdiv (b - (cj_arr j - 1)) T) by (apply cdiv_pos; lia).
      assert (cdiv (b - (cj_arr j - 1)) T <= cdiv (b - a) T) by (apply cdiv_le; lia).
      simpl length. lia.
    + specialize (IH a). lia.
Qed.

Lemma filter_impl_length : forall A (p q : A -> bool) l,
  (forall x, In x l -> p x = true -> q x = true) ->
  (length (filter p l) <= length (filter q l))%nat.
Proof.
  induction l; intros H; simpl; [lia|].
  specialize (IHl (fun x Hx => H x (or_intror Hx))).
  pose proof (H a (or_introl eq_refl)). destruct (p a), (q a); simpl; try lia.
Qed.

Lemma maxjobs_bounds_pending : forall t r js t0 len,
  0 < t_period t -> 0 <= r -> 0 <= len -> completes (t_period t) r js ->
  num_pending t0 len js <= maxjobs r t len.
Proof.
  intros t r js t0 len HT Hr Hlen Hc. unfold num_pending, maxjobs.
  pose proof (count_window _ _ (t0 + len) js HT Hc (t0 - r)) as H.
  replace (t0 + len - (t0 - r)) with (len + r) in H by lia.
  pose proof (cdiv_nonneg (len + r) (t_period t) HT ltac:(lia)).
  assert (length (filter (pending_in t0 len) js) <=
          length (filter (fun j => (t0 - r <? cj_arr j)%Z && (cj_arr j <=? t0 + len)%Z) js))%nat; [|lia].
  apply filter_impl_length. intros j Hj Hp. unfold pending_in in Hp.
  apply andb_prop in Hp. destruct Hp as [H1 H2]. apply Z.leb_le in H1. apply Z.ltb_lt in H2.
  pose proof (completes_in _ _ _ Hc j Hj).
  rewrite (proj2 (Z.ltb_lt _ _)) by lia. rewrite (proj2 (Z.leb_le _ _)) by lia. reflexivity.
Qed.

Fixpoint late_jobs (T R a : Z) (n : nat) : list cjob :=
  match n with O => [] | S k => CJob a (a + R) :: late_jobs T R (a + T) k end.

Lemma late_jobs_ok : forall T R n a, 0 < R -> completes T R (late_jobs T R a n).
Proof.
  induction n as [|n IH]; intros a HR; simpl; [constructor|].
  specialize (IH (a + T) HR). destruct n; simpl in *.
  - constructor. simpl. lia.
  - constructor; simpl; try lia. assumption.
Qed.

Lemma late_jobs_pending : forall T R t0 len n a, 0 < T -> t0 - R < a ->
  a + (Z.of_nat n - 1) * T <= t0 + len ->
  num_pending t0 len (late_jobs T R a n) = Z.of_nat n.
Proof.
  induction n as [|n IH]; intros a HT Ha Hb; [reflexivity|].
  rewrite Nat2Z.inj_succ in Hb.
  unfold num_pending in *. simpl filter. unfold pending_in at 1. cbn [cj_arr cj_done].
  rewrite (proj2 (Z.leb_le _ _)) by nia. rewrite (proj2 (Z.ltb_lt _ _)) by lia. simpl length.
  specialize (IH (a + T) HT ltac:(lia) ltac:(nia)). lia.
Qed.

Lemma maxjobs_tight : forall t r t0 len,
  0 < t_period t -> 0 < r -> 0 <= len ->
  exists js, completes (t_period t) r js /\ num_pending t0 len js = maxjobs r t len.
Proof.
  intros t r t0 len HT Hr Hlen.
  exists (late_jobs (t_period t) r (t0 - r + 1) (Z.to_nat (maxjobs r t len))).
  pose proof (cdiv_nonneg (len + r) (t_period t) HT ltac:(lia)).
  pose proof (cdiv_spec (len + r) (t_period t) HT).
  split; [apply late_jobs_ok; lia|].
  unfold maxjobs. rewrite late_jobs_pending; try lia.
Qed.

(** ** Hyperperiod *)
Lemma lcm2_spec : forall a b, 0 < a -> 0 < b ->
  0 < lcm2 a b /\ (a | lcm2 a b) /\ (b | lcm2 a b) /\
  (forall c, (a | c) -> (b | c) -> (lcm2 a b | c)).
Proof.
  intros a b Ha Hb. unfold lcm2.
  assert (Hg : 0 < Z.gcd a b).
  { pose proof (Z.gcd_nonneg a b). assert (Z.gcd a b <> 0); [|lia].
    intro E. apply Z.gcd_eq_0_l in E. lia. }
  assert (E : a / Z.gcd a b * b = Z.lcm a b).
  { unfold Z.lcm. destruct (Z.gcd_divide_l a b) as [qa Eqa]. destruct (Z.gcd_divide_r a b) as [qb Eqb].
    set (g := Z.gcd a b) in *.
    assert (E1 : a / g = qa) by (rewrite Eqa at 1; apply Z.div_mul; lia).
    assert (E2 : b / g = qb) by (rewrite Eqb at 1; apply Z.div_mul; lia).
    rewrite E1, E2. rewrite Z.abs_eq by nia. nia. }
  rewrite E. split; [|split; [|split]].
  - pose proof (Z.lcm_nonneg a b). assert (Z.lcm a b <> 0); [|lia].
    intro F. apply Z.lcm_eq_0 in F. lia.
  - apply Z.divide_lcm_l.
  - apply Z.divide_lcm_r.
  - intros. apply Z.lcm_least; assumption.
Qed.

Lemma lcm_fold_spec : forall l a, 0 < a -> Forall (fun x => 0 < x) l ->
  0 < fold_left lcm2 l a /\ (a | fold_left lcm2 l a) /\
  (forall x, In x l -> (x | fold_left lcm2 l a)) /\
  (forall c, (a | c) -> (forall x, In x l -> (x | c)) -> (fold_left lcm2 l a | c)).
Proof.
  induction l as [|b l IH]; intros a Ha HF; simpl.
  - split; [assumption|]. split; [apply Z.divide_refl|]. split; [intros x []|intros; assumption].
  - inv HF. destruct (lcm2_spec a b Ha H1) as [P0 [P1 [P2 P3]]].
    destruct (IH (lcm2 a b) P0 H2) as [Q0 [Q1 [Q2 Q3]]].
    split; [assumption|]. split; [eapply Z.divide_trans; eassumption|]. split.
    + intros x [<-|Hx]; [eapply Z.divide_trans; eassumption|auto].
    + intros c Hc Hl. apply Q3; [apply P3; auto|intros; apply Hl; auto].
Qed.

Lemma hyperperiod_spec : forall ts, ts <> [] -> Forall (fun t => 0 < t_period t) ts ->
  0 < hyperperiod ts /\ (forall t, In t ts -> (t_period t | hyperperiod ts)) /\
  (forall c, (forall t, In t ts -> (t_period t | c)) -> (hyperperiod ts | c)).
Proof.
  intros ts Hne HF. destruct ts as [|t ts]; [congruence|]. inv HF.
  unfold hyperperiod. simpl.
  destruct (lcm_fold_spec (map t_period ts) (t_period t) H1) as [Q0 [Q1 [Q2 Q3]]].
  { apply Forall_map. assumption. }
  split; [assumption|]. split.
  - intros x [<-|Hx]; [assumption|]. apply Q2. apply in_map. assumption.
  - intros c Hc. apply Q3; [apply Hc; auto|]. intros x Hx. apply in_map_iff in Hx.
    destruct Hx as [y [<- Hy]]. apply Hc. auto.
Qed.

Lemma hyperperiod_perm : forall ts ts', ts <> [] -> Forall (fun t => 0 < t_period t) ts ->
  Permutation ts ts' -> hyperperiod ts = hyperperiod ts'.
Proof.
  intros ts ts' Hne HF HP.
  assert (Hne' : ts' <> []). { intro E. subst. apply Permutation_sym, Permutation_nil in HP. auto. }
  assert (HF' : Forall (fun t => 0 < t_period t) ts')
    by (eapply Permutation_Forall; eassumption).
  destruct (hyperperiod_spec ts Hne HF) as [A [B C]].
  destruct (hyperperiod_spec ts' Hne' HF') as [A' [B' C']].
  apply Z.divide_antisym_nonneg; try lia.
  - apply C. intros t Ht. apply B'. eapply Permutation_in; eassumption.
  - apply C'. intros t Ht. apply B. eapply Permutation_in; [apply Permutation_sym|]; eassumption.
Qed.

(** ** topsum *)
Definition qge (a b : Q) : Prop := (b <= a)%Q.

Lemma insert_desc_perm : forall x l, Permutation (x :: l) (insert_desc x l).
Proof.
  induction l; simpl; [reflexivity|]. destruct (Qle_bool a x); [reflexivity|].
  rewrite perm_swap. constructor. assumption.
Qed.

Lemma sort_desc_perm : forall l, Permutation l (sort_desc l).
Proof.
  induction l; simpl; [constructor|]. rewrite <- insert_desc_perm. constructor. assumption.
Qed.

Lemma insert_desc_sorted : forall x l, StronglySorted qge l -> StronglySorted qge (insert_desc x l).
Proof.
  induction l; intros H; simpl.
  - constructor; constructor.
  - inv H. destruct (Qle_bool a x) eqn:E.
    + apply Qle_bool_iff in E. constructor; [constructor; assumption|].
      constructor; [assumption|]. eapply Forall_impl; [|eassumption].
      unfold qge. intros b Hb. eapply Qle_trans; eassumption.
    + constructor; [auto|]. apply (Permutation_Forall (insert_desc_perm x l)).
      constructor; [|assumption]. unfold qge.
      destruct (Qlt_le_dec x a); [apply Qlt_le_weak; assumption|].
      apply Qle_bool_iff in q. congruence.
Qed.

Lemma sort_desc_sorted : forall l, StronglySorted qge (sort_desc l).
Proof. induction l; simpl; [constructor|]. apply insert_desc_sorted. assumption. Qed.

Lemma qsum_total : forall l, qsum l = total l.
Proof. induction l; simpl; [reflexivity|]. rewrite IHl. reflexivity. Qed.

Lemma total_perm : forall a b, Permutation a b -> (total a == total b)%Q.
Proof.
  intros a b H. induction H; simpl; try lra.
Qed.

Lemma top_max : forall s sel rest, StronglySorted qge s -> Permutation (sel ++ rest) s ->
  (total sel <= total (firstn (length sel) s))%Q.
Proof.
  induction s as [|a s IH]; intros sel rest Hs HP.
  - apply Permutation_sym, Permutation_nil in HP. apply app_eq_nil in HP. destruct HP as [-> ->].
    simpl. lra.
  - inv Hs. assert (Hin : In a (sel ++ rest)).
    { eapply Permutation_in; [apply Permutation_sym; eassumption|left; reflexivity]. }
    apply in_app_or in Hin. destruct Hin as [Hin|Hin].
    + apply in_split in Hin. destruct Hin as [l1 [l2 ->]].
      assert (HP' : Permutation ((l1 ++ l2) ++ rest) s).
      { apply Permutation_cons_inv with a. rewrite <- HP.
        rewrite <- !app_assoc. simpl. rewrite Permutation_middle. reflexivity. }
      specialize (IH _ _ H1 HP').
      assert (E : length (l1 ++ a :: l2) = S (length (l1 ++ l2)))
        by (rewrite !app_length; simpl; lia).
      rewrite E. simpl.
      rewrite (total_perm (l1 ++ a :: l2) (a :: l1 ++ l2))
        by (symmetry; apply Permutation_middle). simpl. lra.
    + destruct sel as [|b sel]; [simpl; lra|].
      apply in_split in Hin. destruct Hin as [r1 [r2 ->]].
      assert (HP' : Permutation (sel ++ (b :: r1 ++ r2)) s).
      { apply Permutation_cons_inv with a. rewrite <- HP. simpl.
        transitivity (a :: b :: sel ++ r1 ++ r2).
        - constructor. symmetry. apply Permutation_middle.
        - rewrite perm_swap. constructor. rewrite !app_assoc. apply Permutation_middle. }
      specialize (IH _ _ H1 HP'). simpl.
      assert (b <= a)%Q.
      { assert (In b s).
        { eapply Permutation_in; [exact HP'|]. apply in_or_app. right. left. reflexivity. }
        rewrite Forall_forall in H2. apply H2. assumption. }
      lra.
Qed.

Lemma topsum_upper : forall A (lst : list A) f n sel,
  selection (map f lst) sel (Nat.min n (length lst)) -> (total sel <= topsum lst f n)%Q.
Proof.
  intros A lst f n sel [Hl [rest HP]]. unfold topsum.
  change (total sel <= total (firstn n (sort_desc (map f lst))))%Q.
  assert (HP' : Permutation (sel ++ rest) (sort_desc (map f lst)))
    by (rewrite HP; apply sort_desc_perm).
  pose proof (top_max _ _ _ (sort_desc_sorted _) HP') as H. rewrite Hl in H.
  assert (L : length (sort_desc (map f lst)) = length lst).
  { rewrite <- (Permutation_length (sort_desc_perm (map f lst))). apply map_length. }
  destruct (Nat.le_gt_cases n (length lst)).
  - rewrite Nat.min_l in H by lia. assumption.
  - rewrite Nat.min_r in H by lia. rewrite <- L, firstn_all in H.
    rewrite firstn_all2 by lia. assumption.
Qed.

Lemma topsum_attained : forall A (lst : list A) f n,
  exists sel, selection (map f lst) sel (Nat.min n (length lst)) /\ total sel = topsum lst f n.
Proof.
  intros A lst f n. exists (firstn n (sort_desc (map f lst))).
  assert (L : length (sort_desc (map f lst)) = length lst).
  { rewrite <- (Permutation_length (sort_desc_perm (map f lst))). apply map_length. }
  split; [split|].
  - rewrite firstn_length, L. reflexivity.
  - exists (skipn n (sort_desc (map f lst))). rewrite firstn_skipn.
    apply Permutation_sym, sort_desc_perm.
  - reflexivity.
Qed.

Lemma total_firstn_mono : forall l n m, (n <= m)%nat -> Forall (fun x => 0 <= x)%Q l ->
  (total (firstn n l) <= total (firstn m l))%Q.
Proof.
  induction l; intros n m H HF; destruct n, m; simpl; try lra; try lia.
  - inv HF. assert (0 <= total (firstn m l))%Q; [|lra].
    specialize (IHl 0%nat m ltac:(lia) H3). simpl in IHl. assumption.
  - inv HF. specialize (IHl n m ltac:(lia) H3). lra.
Qed.

Lemma topsum_upper_le : forall A (lst : list A) f n k sel,
  (forall x, In x lst -> (0 <= f x)%Q) -> (k <= n)%nat ->
  selection (map f lst) sel k -> (total sel <= topsum lst f n)%Q.
Proof.
  intros A lst f n k sel Hp Hk [Hl [rest HP]].
  assert (k <= length lst)%nat.
  { apply Permutation_length in HP. rewrite app_length, map_length in HP. lia. }
  assert (H1 : (total sel <= topsum lst f k)%Q).
  { apply topsum_upper. rewrite Nat.min_l by lia. split; eauto. }
  unfold topsum in *. eapply Qle_trans; [exact H1|].
  change (total (firstn k (sort_desc (map f lst))) <= total (firstn n (sort_desc (map f lst))))%Q.
  apply total_firstn_mono; [assumption|].
  apply (Permutation_Forall (sort_desc_perm (map f lst))).
  apply Forall_map. apply Forall_forall. assumption.
Qed.

(** ** Points of change *)
Lemma count_take_spec : forall fuel cur step max_t l, 0 < step ->
  count_take fuel cur step max_t = Some l ->
  StronglySorted Z.lt l /\
  forall x, In x l <-> (x <= max_t /\ exists k, 0 <= k /\ x = cur + k * step).
Proof.
  induction fuel as [|f IH]; intros cur step max_t l Hs H; simpl in H; [discriminate|].
  destruct (Z.leb_spec cur max_t).
  - destruct (count_take f (cur + step) step max_t) as [r|] eqn:E; [|discriminate].
    simpl in H. inv H. destruct (IH _ _ _ _ Hs E) as [S1 M1]. split.
    + constructor; [assumption|]. apply Forall_forall. intros x Hx. apply M1 in Hx.
      destruct Hx as [_ [k [Hk ->]]]. nia.
    + intros x. simpl. rewrite M1. split.
      * intros [<-|[Hm [k [Hk ->]]]].
        -- split; [assumption|]. exists 0. lia.
        -- split; [assumption|]. exists (k + 1). lia.
      * intros [Hm [k [Hk Hx]]]. destruct (Z.eq_dec k 0) as [->|].
        -- left. lia.
        -- right. split; [assumption|]. exists (k - 1). split; lia.
  - inv H. split; [constructor|]. intros x. simpl. split; [tauto|].
    intros [Hm [k [Hk Hx]]]. nia.
Qed.

Lemma count_take_fuel : forall n cur step max_t fuel, 0 < step ->
  (max_t - cur < Z.of_nat n) -> (n < fuel)%nat ->
  exists l, count_take fuel cur step max_t = Some l.
Proof.
  induction n as [|n IH]; intros cur step max_t fuel Hs Hn Hf; destruct fuel as [|f]; try lia; simpl.
  - destruct (Z.leb_spec cur max_t); [lia|eauto].
  - destruct (Z.leb_spec cur max_t); [|eauto].
    destruct (IH (cur + step) step max_t f) as [l El]; try lia. rewrite El. simpl. eauto.
Qed.

Lemma count_drop_spec : forall fuel cur step s, 0 < step ->
  count_drop fuel cur step = Some s ->
  0 <= s /\ (exists k, 0 <= k /\ s = cur + k * step) /\
  (forall k, 0 <= k -> cur + k * step < s -> cur + k * step < 0).
Proof.
  induction fuel as [|f IH]; intros cur step s Hs H; simpl in H; [discriminate|].
  destruct (Z.ltb_spec cur 0).
  - destruct (IH _ _ _ Hs H) as [A [[k [Hk Ek]] M]]. split; [assumption|]. split.
    + exists (k + 1). lia.
    + intros k' Hk' Hlt. destruct (Z.eq_dec k' 0) as [->|]; [lia|].
      specialize (M (k' - 1) ltac:(lia)). replace (cur + step + (k' - 1) * step) with (cur + k' * step) in M by lia.
      auto.
  - inv H. split; [lia|]. split; [exists 0; lia|]. intros; nia.
Qed.

Lemma count_drop_fuel : forall n cur step fuel, 0 < step ->
  (- cur <= Z.of_nat n) -> (n < fuel)%nat -> exists s, count_drop fuel cur step = Some s /\ cur <= s.
Proof.
  induction n as [|n IH]; intros cur step fuel Hs Hn Hf; destruct fuel as [|f]; try lia; simpl.
  - destruct (Z.ltb_spec cur 0); [lia|]. exists cur. split; [reflexivity|lia].
  - destruct (Z.ltb_spec cur 0).
    + destruct (IH (cur + step) step f) as [s [Es Hle]]; try lia. exists s. split; [assumption|lia].
    + exists cur. split; [reflexivity|lia].
Qed.

Lemma points_from_spec : forall fuel start step max_t offset l, 0 < step ->
  (offset <= 0 -> 0 <= start) ->
  points_from fuel start step max_t offset = Some l ->
  StronglySorted Z.lt l /\
  forall x, In x l <-> (0 <= x <= max_t /\ exists k, 0 <= k /\ x = start + k * step).
Proof.
  intros fuel start step max_t offset l Hs Hstart H. unfold points_from in H.
  destruct (Z.ltb_spec 0 offset).
  - destruct (count_drop fuel start step) as [s|] eqn:E; [|discriminate].
    destruct (count_drop_spec _ _ _ _ Hs E) as [A [[k0 [Hk0 Ek0]] M]].
    destruct (count_take_spec _ _ _ _ _ Hs H) as [S1 M1]. split; [assumption|].
    intros x. rewrite M1. split.
    + intros [Hm [k [Hk ->]]]. split; [nia|]. exists (k0 + k). lia.
    + intros [[Hx Hm] [k [Hk Ex]]]. split; [assumption|].
      destruct (Z.lt_ge_cases x s) as [G|G].
      * exfalso. specialize (M k Hk). lia.
      * exists (k - k0). split; [nia|lia].
  - destruct (count_take_spec _ _ _ _ _ Hs H) as [S1 M1]. split; [assumption|].
    intros x. rewrite M1. specialize (Hstart ltac:(lia)). split.
    + intros [Hm [k [Hk ->]]]. split; [nia|]. eauto.
    + intros [[Hx Hm] He]. split; assumption.
Qed.

Lemma points_from_fuel : forall start step max_t offset, 0 < step ->
  exists n, forall fuel, (n <= fuel)%nat -> exists l, points_from fuel start step max_t offset = Some l.
Proof.
  intros start step max_t offset Hs.
  exists (S (Z.to_nat (Z.max 0 (- start)) + Z.to_nat (Z.max 0 (max_t - start + 1)))).
  intros fuel Hf. unfold points_from. destruct (0 <? offset).
  - destruct (count_drop_fuel (Z.to_nat (Z.max 0 (- start))) start step fuel) as [s [-> Hle]]; try lia.
    apply (count_take_fuel (Z.to_nat (Z.max 0 (max_t - start + 1)))); lia.
  - apply (count_take_fuel (Z.to_nat (Z.max 0 (max_t - start + 1)))); lia.
Qed.

Lemma dbf_changes_iff : forall t y, 0 < t_period t -> 0 < t_deadline t -> 0 < t_cost t ->
  dbf t y <> dbf t (y - 1) <-> exists k, 0 <= k /\ y = t_deadline t + k * t_period t.
Proof.
  intros t y HT HD HC. unfold dbf.
  pose proof (div_spec (y - t_deadline t) (t_period t) HT) as H1.
  pose proof (div_spec (y - 1 - t_deadline t) (t_period t) HT) as H2.
  set (q := (y - t_deadline t) / t_period t) in *.
  set (q' := (y - 1 - t_deadline t) / t_period t) in *.
  destruct (Z.leb_spec y 0); destruct (Z.leb_spec (y - 1) 0); try lia.
  - split; [intros E; congruence|]. intros [k [Hk E]]. nia.
  - split.
    + intros E. assert (0 <= q) by nia. exists q. split; [assumption|]. nia.
    + intros [k [Hk E]]. assert (q = k) by nia. nia.
  - split.
    + intros E. assert (q <> q') by congruence. assert (q' <= q) by nia.
      assert (0 <= q) by nia. exists q. split; [assumption|]. nia.
    + intros [k [Hk E]]. assert (q = k) by nia. assert (q' = k - 1) by nia. nia.
Qed.

Lemma rbf_changes_iff : forall t y, 0 < t_period t -> 0 < t_cost t ->
  rbf t y <> rbf t (y - 1) <-> exists k, 0 <= k /\ y = k * t_period t.
Proof.
  intros t y HT HC. unfold rbf.
  pose proof (div_spec y (t_period t) HT) as H1.
  pose proof (div_spec (y - 1) (t_period t) HT) as H2.
  set (q := y / t_period t) in *. set (q' := (y - 1) / t_period t) in *.
  destruct (Z.ltb_spec y 0); destruct (Z.ltb_spec (y - 1) 0); try lia.
  - split; [intros E; congruence|]. intros [k [Hk E]]. nia.
  - assert (y = 0) by lia. subst y. split.
    + intros _. exists 0. lia.
    + intros _. assert (q = 0) by nia. nia.
  - split.
    + intros E. assert (q <> q') by congruence. assert (q' <= q) by nia.
      assert (0 <= q) by nia. exists q. split; [assumption|]. nia.
    + intros [k [Hk E]]. assert (q = k) by nia. assert (q' = k - 1) by nia. nia.
Qed.

Lemma dbf_points_spec : forall fuel t max_t offset l,
  0 < t_period t -> 0 < t_deadline t -> 0 < t_cost t ->
  dbf_points_of_change fuel t max_t offset = Some l ->
  StronglySorted Z.lt l /\
  forall x, In x l <-> (0 <= x <= max_t /\ dbf t (x + offset) <> dbf t (x + offset - 1)).
Proof.
  intros fuel t max_t offset l HT HD HC H. unfold dbf_points_of_change in H.
  apply points_from_spec in H; [|lia|intro; lia]. destruct H as [S1 M1]. split; [assumption|].
  intros x. rewrite M1, dbf_changes_iff by assumption. split.
  - intros [Hx [k [Hk E]]]. split; [assumption|]. exists k. lia.
  - intros [Hx [k [Hk E]]]. split; [assumption|]. exists k. lia.
Qed.

Lemma rbf_points_spec : forall fuel t max_t offset l,
  0 < t_period t -> 0 < t_cost t ->
  rbf_points_of_change fuel t max_t offset = Some l ->
  StronglySorted Z.lt l /\
  forall x, In x l <-> (0 <= x <= max_t /\ rbf t (x + offset) <> rbf t (x + offset - 1)).
Proof.
  intros fuel t max_t offset l HT HC H. unfold rbf_points_of_change in H.
  apply points_from_spec in H; [|lia|intro; lia]. destruct H as [S1 M1]. split; [assumption|].
  intros x. rewrite M1, rbf_changes_iff by assumption. split.
  - intros [Hx [k [Hk E]]]. split; [assumption|]. exists k. lia.
  - intros [Hx [k [Hk E]]]. split; [assumption|]. exists k. lia.
Qed.

(** merge and uniq *)
Lemma merge2_nil_r : forall a, merge2 a [] = a.
Proof. destruct a; reflexivity. Qed.

Lemma merge2_cons : forall x a y b, merge2 (x :: a) (y :: b) =
  if x <=? y then x :: merge2 a (y :: b) else y :: merge2 (x :: a) b.
Proof. reflexivity. Qed.

Lemma merge2_in : forall a b x, In x (merge2 a b) <-> In x a \/ In x b.
Proof.
  induction a as [|u a IHa]; intros b x.
  - destruct b; simpl; tauto.
  - induction b as [|v b IHb].
    + simpl. tauto.
    + rewrite merge2_cons. destruct (u <=? v).
      * simpl. rewrite IHa. simpl. tauto.
      * simpl. simpl in IHb. rewrite IHb. tauto.
Qed.

Lemma merge2_sorted : forall a b, StronglySorted Z.le a -> StronglySorted Z.le b ->
  StronglySorted Z.le (merge2 a b).
Proof.
  induction a as [|u a IHa]; intros b Ha Hb.
  - destruct b; assumption.
  - induction b as [|v b IHb]; [assumption|].
    rewrite merge2_cons. inv Ha. inv Hb. destruct (Z.leb_spec u v).
    + constructor; [apply IHa; [assumption|constructor; assumption]|].
      apply Forall_forall. intros x Hx. apply merge2_in in Hx.
      rewrite Forall_forall in *. destruct Hx as [Hx|[<-|Hx]]; auto.
      specialize (H4 _ Hx). lia.
    + constructor; [apply IHb; assumption|].
      apply Forall_forall. intros x Hx. apply merge2_in in Hx.
      rewrite Forall_forall in *. destruct Hx as [[<-|Hx]|Hx]; auto; [lia|].
      specialize (H2 _ Hx). lia.
Qed.

Lemma merge_all_in : forall ls x, In x (merge_all ls) <-> exists l, In l ls /\ In x l.
Proof.
  induction ls as [|l ls IH]; intros x; simpl.
  - split; [tauto|]. intros [l [[] _]].
  - rewrite merge2_in, IH. split.
    + intros [H|[l' [H1 H2]]]; eauto.
    + intros [l' [[<-|H1] H2]]; eauto.
Qed.

Lemma merge_all_sorted : forall ls, Forall (StronglySorted Z.le) ls -> StronglySorted Z.le (merge_all ls).
Proof. induction 1; simpl; [constructor|]. apply merge2_sorted; assumption. Qed.

Lemma uniq_from_spec : forall l last, StronglySorted Z.le (last :: l) ->
  StronglySorted Z.lt (last :: uniq_from last l) /\
  (forall x, In x (last :: uniq_from last l) <-> In x (last :: l)).
Proof.
  induction l as [|y l IH]; intros last H.
  - simpl. split; [repeat constructor|tauto].
  - inv H. inv H2. inv H3. simpl. destruct (Z.eqb_spec y last).
    + subst y. destruct (IH last) as [S1 M1]; [constructor; assumption|]. split; [assumption|].
      intros x. rewrite (M1 x). simpl. tauto.
    + destruct (IH y) as [S1 M1]; [constructor; assumption|]. split.
      * constructor; [assumption|]. apply StronglySorted_inv in S1. destruct S1 as [_ F].
        constructor; [lia|]. eapply Forall_impl; [|exact F]. intros; lia.
      * intros x. simpl in *. specialize (M1 x). tauto.
Qed.

Lemma uniq_spec : forall l, StronglySorted Z.le l ->
  StronglySorted Z.lt (uniq l) /\ (forall x, In x (uniq l) <-> In x l).
Proof.
  destruct l as [|y l]; intros H; simpl uniq.
  - split; [constructor|tauto].
  - apply uniq_from_spec. assumption.
Qed.

Lemma ssorted_lt_le : forall l, StronglySorted Z.lt l -> StronglySorted Z.le l.
Proof.
  induction 1; constructor; [assumption|]. eapply Forall_impl; [|eassumption]. intros; lia.
Qed.

Lemma sequence_Forall2 : forall A B (f : A -> option B) l ls,
  sequence (map f l) = Some ls -> Forall2 (fun a b => f a = Some b) l ls.
Proof.
  induction l as [|a l IH]; intros ls H; simpl in H.
  - inv H. constructor.
  - destruct (f a) eqn:E; [|discriminate]. destruct (sequence (map f l)) eqn:E2; [|discriminate].
    simpl in H. inv H. constructor; auto.
Qed.

Lemma sequence_Some : forall A B (f : A -> option B) l,
  (forall a, In a l -> exists b, f a = Some b) -> exists ls, sequence (map f l) = Some ls.
Proof.
  induction l as [|a l IH]; intros H; simpl; [eauto|].
  destruct (H a (or_introl eq_refl)) as [b ->].
  destruct IH as [ls ->]; [intros; apply H; right; assumption|]. simpl. eauto.
Qed.

Lemma zsum_change : forall A (f g : A -> Z) l, (forall a, In a l -> g a <= f a) ->
  zsum (map f l) <> zsum (map g l) <-> exists a, In a l /\ f a <> g a.
Proof.
  intros A f g l Hm. split.
  - induction l as [|a l IH]; intros H; simpl in H; [lia|].
    destruct (Z.eq_dec (f a) (g a)).
    + destruct IH as [b [Hb E]]; [intros; apply Hm; right; assumption|lia|].
      exists b. split; [right|]; assumption.
    + exists a. split; [left; reflexivity|assumption].
  - induction l as [|a l IH]; intros [b [Hb E]]; [destruct Hb|]. simpl.
    assert (Hle : zsum (map g l) <= zsum (map f l))
      by (apply zsum_map_le; intros; apply Hm; right; assumption).
    pose proof (Hm a (or_introl eq_refl)). destruct Hb as [->|Hb]; [lia|].
    assert (zsum (map f l) <> zsum (map g l)); [|lia].
    apply IH; [intros; apply Hm; right; assumption|eauto].
Qed.

Section TSPoints.
  Variable pts : task -> option (list Z).
  Variable fn : task -> Z -> Z.
  Variable valid : task -> Prop.
  Variables (max_t offset : Z).
  Hypothesis fn_mono : forall t x y, valid t -> x <= y -> fn t x <= fn t y.
  Hypothesis pts_ok : forall t l, valid t -> pts t = Some l ->
    StronglySorted Z.lt l /\
    forall x, In x l <-> (0 <= x <= max_t /\ fn t (x + offset) <> fn t (x + offset - 1)).

  Lemma ts_points_gen : forall ts l, Forall valid ts ->
    option_map (fun ls => uniq (merge_all ls)) (sequence (map pts ts)) = Some l ->
    StronglySorted Z.lt l /\
    forall x, In x l <-> (0 <= x <= max_t /\
      zsum (map (fun t => fn t (x + offset)) ts) <> zsum (map (fun t => fn t (x + offset - 1)) ts)).
  Proof.
    intros ts l Hv H. destruct (sequence (map pts ts)) as [ls|] eqn:E; [|discriminate].
    simpl in H. inv H. apply sequence_Forall2 in E.
    assert (Hs : Forall (StronglySorted Z.le) ls).
    { clear - E Hv pts_ok. induction E; constructor; inv Hv; auto.
      apply ssorted_lt_le. eapply pts_ok; eassumption. }
    destruct (uniq_spec _ (merge_all_sorted _ Hs)) as [S1 M1]. split; [assumption|].
    intros x. rewrite M1, merge_all_in.
    rewrite zsum_change.
    2:{ intros t Ht. rewrite Forall_forall in Hv. apply fn_mono; [auto|lia]. }
    clear - E Hv pts_ok. split.
    - intros [l [Hl Hx]]. induction E; [destruct Hl|]. inv Hv.
      destruct Hl as [->|Hl].
      + destruct (pts_ok _ _ H2 H) as [_ M]. apply M in Hx. destruct Hx as [? ?].
        split; [assumption|]. exists x0. split; [left; reflexivity|assumption].
      + destruct (IHE H3 Hl) as [? [a [Ha ?]]]. split; [assumption|]. exists a. split; [right|]; assumption.
    - intros [Hr [a [Ha Hne]]]. induction E; [destruct Ha|]. inv Hv.
      destruct Ha as [->|Ha].
      + destruct (pts_ok _ _ H2 H) as [_ M]. exists y. split; [left; reflexivity|]. apply M. auto.
      + destruct (IHE H3 Ha) as [l1 [? ?]]. exists l1. split; [right|]; assumption.
  Qed.
End TSPoints.

Definition pos_task (t : task) : Prop := 0 < t_period t /\ 0 < t_deadline t /\ 0 < t_cost t.

Lemma ts_dbf_points_spec : forall fuel ts max_t offset l,
  Forall pos_task ts -> ts_dbf_points fuel ts max_t offset = Some l ->
  StronglySorted Z.lt l /\
  forall x, In x l <-> (0 <= x <= max_t /\ ts_dbf ts (x + offset) <> ts_dbf ts (x + offset - 1)).
Proof.
  intros fuel ts max_t offset l Hv H.
  eapply (ts_points_gen (fun t => dbf_points_of_change fuel t max_t offset) dbf pos_task); try eassumption.
  - intros t x y [? [? ?]] Hxy. apply dbf_mono; lia.
  - intros t r [? [? ?]] Hp. eapply dbf_points_spec; eassumption.
Qed.

Lemma ts_rbf_points_spec : forall fuel ts max_t offset l,
  Forall pos_task ts -> ts_rbf_points fuel ts max_t offset = Some l ->
  StronglySorted Z.lt l /\
  forall x, In x l <-> (0 <= x <= max_t /\ ts_rbf ts (x + offset) <> ts_rbf ts (x + offset - 1)).
Proof.
  intros fuel ts max_t offset l Hv H.
  eapply (ts_points_gen (fun t => rbf_points_of_change fuel t max_t offset) rbf pos_task); try eassumption.
  - intros t x y [? [? ?]] Hxy. apply rbf_mono; lia.
  - intros t r [? [? ?]] Hp. eapply rbf_points_spec; eassumption.
Qed.

Lemma fuel_all : forall (pts : nat -> task -> option (list Z)) ts,
  (forall t, In t ts -> exists n, forall fuel, (n <= fuel)%nat -> exists l, pts fuel t = Some l) ->
  exists n, forall fuel, (n <= fuel)%nat -> forall t, In t ts -> exists l, pts fuel t = Some l.
Proof.
  induction ts as [|t ts IH]; intros H; [exists 0%nat; intros ? ? ? []|].
  destruct IH as [n1 H1]; [intros; apply H; right; assumption|].
  destruct (H t (or_introl eq_refl)) as [n2 H2]. exists (Nat.max n1 n2).
  intros fuel Hf t' [<-|Ht]; [apply H2; lia|apply H1; [lia|assumption]].
Qed.

Lemma ts_dbf_points_total : forall ts max_t offset, Forall pos_task ts ->
  exists n, forall fuel, (n <= fuel)%nat -> exists l, ts_dbf_points fuel ts max_t offset = Some l.
Proof.
  intros ts max_t offset Hv.
  destruct (fuel_all (fun fuel t => dbf_points_of_change fuel t max_t offset) ts) as [n Hn].
  { intros t Ht. rewrite Forall_forall in Hv. destruct (Hv t Ht) as [? _].
    apply points_from_fuel. assumption. }
  exists n. intros fuel Hf. unfold ts_dbf_points.
  destruct (sequence_Some _ _ (fun t => dbf_points_of_change fuel t max_t offset) ts (Hn fuel Hf)) as [ls ->].
  simpl. eauto.
Qed.

Lemma ts_rbf_points_total : forall ts max_t offset, Forall pos_task ts ->
  exists n, forall fuel, (n <= fuel)%nat -> exists l, ts_rbf_points fuel ts max_t offset = Some l.
Proof.
  intros ts max_t offset Hv.
  destruct (fuel_all (fun fuel t => rbf_points_of_change fuel t max_t offset) ts) as [n Hn].
  { intros t Ht. rewrite Forall_forall in Hv. destruct (Hv t Ht) as [? _].
    apply points_from_fuel. assumption. }
  exists n. intros fuel Hf. unfold ts_rbf_points.
  destruct (sequence_Some _ _ (fun t => rbf_points_of_change fuel t max_t offset) ts (Hn fuel Hf)) as [ls ->].
  simpl. eauto.
Qed.
