(** Proofs about the Python global EDF tests. *)
From Coq Require Import ZArith QArith Qround List Bool Lia Psatz.
From Verif Require Import Base ModelTasks SpecUni SpecQPA SpecGlobal ProofUni ProofEDF ProofGlobal ProofGFB ModelGEDF.
Import ListNotations.
Open Scope Z_scope.

(** The task as the specification sees it. *)
Definition e_of (t : task) : etask := ETask (t_cost t) (t_period t) (t_deadline t).

Definition wf_task (t : task) : Prop := 0 <= t_cost t /\ 1 <= t_deadline t /\ 1 <= t_period t.
Definition constrained (t : task) : Prop := t_deadline t <= t_period t.
Definition feasible (t : task) : Prop := t_cost t <= t_deadline t.

Lemma wf_e_of : forall ts, Forall wf_task ts -> Forall wf_etask (map e_of ts).
Proof.
  intros ts H. rewrite Forall_map. eapply Forall_impl; [|exact H]. intros t [H1 [H2 H3]]. unfold wf_etask, e_of; cbn. lia.
Qed.

Definition dt : task := Task 0 1 0.

Lemma et_of : forall ts i, et (map e_of ts) i = e_of (nth i ts dt).
Proof. intros. unfold et. change (ETask 0 1 0) with (e_of dt). apply map_nth. Qed.

Lemma Forall_nth_lt : forall A (P : A -> Prop) l d i, Forall P l -> (i < length l)%nat -> P (nth i l d).
Proof. intros A P l d i H Hi. rewrite Forall_forall in H. apply H. apply nth_In. assumption. Qed.

(** ** Lists without one element *)
Lemma sumf_others : forall A (d : A) (f : A -> Z) l k,
  zsum (map f (others k l)) = sumf (fun i => if Nat.eqb i k then 0 else f (nth i l d)) (length l).
Proof.
  intros A d f l k. unfold others. rewrite map_app, zsum_app. revert k. induction l as [|x l IH]; intros k.
  - rewrite firstn_nil, skipn_nil. reflexivity.
  - cbn [length]. change (S (length l)) with (1 + length l)%nat. rewrite sumf_split. cbn [sumf].
    destruct k as [|k].
    + cbn [firstn skipn map zsum Nat.eqb]. replace (zsum (map f l)) with (sumf (fun i => f (nth i l d)) (length l)) by (rewrite <- zsum_map_nth; reflexivity).
      cbn. lia.
    + cbn [firstn map zsum]. change (skipn (S (S k)) (x :: l)) with (skipn (S k) l).
      specialize (IH k). cbn [Nat.eqb nth]. rewrite <- Z.add_assoc, IH. cbn. lia.
Qed.

Lemma in_others : forall A k (l : list A) x, In x (others k l) -> In x l.
Proof.
  intros A k l x H. unfold others in H. apply in_app_or in H. rewrite <- (firstn_skipn k l). apply in_or_app.
  destruct H as [H|H]; [left; assumption|right]. replace (skipn (S k) l) with (skipn 1 (skipn k l)) in H.
  - destruct (skipn k l); [destruct H|right; exact H].
  - clear. revert l. induction k; intros l; [reflexivity|]. destruct l; [reflexivity|]. apply (IHk l).
Qed.

Lemma indexed_in : forall A (l : list A) k x, In (k, x) (indexed l) <-> nth_error l k = Some x.
Proof.
  intros A l. unfold indexed. assert (G : forall a k x, In (k, x) (combine (seq a (length l)) l) <-> (a <= k)%nat /\ nth_error l (k - a) = Some x).
  { induction l as [|y l IH]; intros a k x.
    - cbn. split; [intros []|]. intros [_ H]. destruct (k - a)%nat; discriminate.
    - cbn [length seq combine In]. rewrite IH. split.
      + intros [E|[H1 H2]].
        * inv E. split; [lia|]. rewrite Nat.sub_diag. reflexivity.
        * split; [lia|]. replace (k - a)%nat with (S (k - S a)) by lia. exact H2.
      + intros [H1 H2]. destruct (Nat.eq_dec k a) as [->|E].
        * rewrite Nat.sub_diag in H2. cbn in H2. inv H2. left. reflexivity.
        * right. split; [lia|]. replace (k - a)%nat with (S (k - S a)) in H2 by lia. exact H2. }
  intros k x. rewrite G, Nat.sub_0_r. intuition lia.
Qed.

(** ** Rationals *)
Lemma zdivq_scale : forall a b, b <> 0 -> (zdivq a b * inject_Z b == inject_Z a)%Q.
Proof. intros a b H. unfold zdivq. field. intros X. apply H. change 0%Q with (inject_Z 0) in X. rewrite inject_Z_injective in X. exact X. Qed.

Lemma qle_scale : forall a b (p : Z), 0 < p -> (a <= b)%Q -> (a * inject_Z p <= b * inject_Z p)%Q.
Proof. intros. apply Qmult_le_compat_r; [assumption|]. change 0%Q with (inject_Z 0). rewrite <- Zle_Qle. lia. Qed.

Lemma qsum_scale : forall A (f : A -> Q) (g : A -> Z) p l, (forall x, In x l -> (f x * inject_Z p == inject_Z (g x))%Q) ->
  (qsum (map f l) * inject_Z p == inject_Z (zsum (map g l)))%Q.
Proof.
  intros A f g p. induction l as [|x l IH]; intros H; cbn [map qsum fold_right zsum].
  - ring.
  - fold (qsum (map f l)). rewrite inject_Z_plus. rewrite <- IH by (intros; apply H; right; assumption).
    rewrite <- (H x (or_introl eq_refl)). ring.
Qed.

Lemma max_list_ge : forall l a x, x = a \/ In x l -> (x <= max_list a l)%Q.
Proof.
  induction l as [|y l IH]; intros a x H; unfold max_list in *; cbn [fold_left].
  - destruct H as [->|[]]. apply Qle_refl.
  - destruct (Qle_bool y a) eqn:E; cbn [negb].
    + apply Qle_bool_iff in E. destruct H as [->|[->|H]].
      * apply IH. left. reflexivity.
      * eapply Qle_trans; [exact E|]. apply IH. left. reflexivity.
      * apply IH. right. assumption.
    + destruct H as [->|[->|H]].
      * apply Qle_trans with y; [|apply IH; left; reflexivity].
        apply Qlt_le_weak. apply Qnot_le_lt. intros X. apply Qle_bool_iff in X. congruence.
      * apply IH. left. reflexivity.
      * apply IH. right. assumption.
Qed.

(** ** GFB *)
Definition prod_deadlines (ts : taskset) : Z := fold_right (fun t p => t_deadline t * p) 1 ts.

Lemma prod_pos : forall ts, Forall wf_task ts -> 0 < prod_deadlines ts.
Proof. induction 1 as [|t ts [_ [H _]] _ IH]; cbn; [lia|]. fold (prod_deadlines ts). nia. Qed.

Lemma prod_div : forall ts t, Forall wf_task ts -> In t ts -> (t_deadline t | prod_deadlines ts).
Proof.
  intros ts t _ H. induction ts as [|x ts IH]; [destruct H|]. cbn. fold (prod_deadlines ts). destruct H as [->|H].
  - apply Z.divide_factor_l.
  - apply Z.divide_mul_r. apply IH. assumption.
Qed.

Lemma density_constrained : forall t, constrained t -> density t = zdivq (t_cost t) (t_deadline t).
Proof. intros t H. unfold density, constrained in *. rewrite Z.min_r by assumption. reflexivity. Qed.

Lemma gfb_sound : forall (m : nat) ts, (1 <= m)%nat -> Forall wf_task ts -> Forall constrained ts ->
  gfb_test (Z.of_nat m) ts = true -> gedf_schedulable (map e_of ts) m.
Proof.
  intros m ts Hm Hw Hc Ht s sc Hl Hv Hp j e He.
  assert (Hj : (fst j < length (map e_of ts))%nat) by (apply nth_error_Some; congruence).
  assert (Ee : e = et (map e_of ts) (fst j)) by (unfold et; symmetry; apply nth_error_nth; assumption).
  pose proof (wf_e_of ts Hw) as We.
  set (P := prod_deadlines ts). set (v := fun i => P / t_deadline (nth i ts dt)).
  assert (HP : 0 < P) by (apply prod_pos; assumption).
  assert (Hwi : forall i, (i < length ts)%nat -> wf_task (nth i ts dt)) by (intros; apply Forall_nth_lt; assumption).
  assert (Hci : forall i, (i < length ts)%nat -> constrained (nth i ts dt)) by (intros; apply Forall_nth_lt; assumption).
  assert (Hvi : forall i, (i < length ts)%nat -> v i * t_deadline (nth i ts dt) = P).
  { intros i Hi. unfold v. destruct (prod_div ts (nth i ts dt) Hw (nth_In _ _ Hi)) as [z E]. fold P in E. rewrite E.
    destruct (Hwi i Hi) as [_ [X _]]. rewrite Z.div_mul by lia. reflexivity. }
  assert (Hsc : forall t, In t ts -> (density t * inject_Z P == inject_Z (t_cost t * (P / t_deadline t)))%Q).
  { intros t Hin. rewrite Forall_forall in Hw, Hc. destruct (Hw t Hin) as [_ [X _]]. rewrite density_constrained by (apply Hc; assumption).
    destruct (prod_div ts t ltac:(apply Forall_forall; assumption) Hin) as [z E]. fold P in E. rewrite E.
    rewrite Z.div_mul by lia. rewrite (inject_Z_mult z), (inject_Z_mult (t_cost t)).
    setoid_replace (zdivq (t_cost t) (t_deadline t) * (inject_Z z * inject_Z (t_deadline t)))%Q
      with (zdivq (t_cost t) (t_deadline t) * inject_Z (t_deadline t) * inject_Z z)%Q by ring.
    rewrite zdivq_scale by lia. ring. }
  assert (Htest : forall k, (k < length ts)%nat ->
    sumf (fun i => t_cost (nth i ts dt) * v i) (length ts) <= Z.of_nat m * P - (Z.of_nat m - 1) * (t_cost (nth k ts dt) * v k)).
  { intros k Hk. destruct ts as [|t r]; [cbn in Hk; lia|]. set (ts := t :: r) in *.
    unfold gfb_test in Ht. unfold ts in Ht. apply Qle_bool_iff in Ht. fold ts in Ht.
    set (dm := max_list (density t) (map density r)) in *.
    assert (Hk' : In (nth k ts dt) ts) by (apply nth_In; assumption).
    assert (Hmax : (density (nth k ts dt) <= dm)%Q).
    { apply max_list_ge. destruct Hk' as [E|E]; [left; rewrite E; reflexivity|right; apply in_map; assumption]. }
    assert (Hle : (ts_density ts <= inject_Z (Z.of_nat m) - (inject_Z (Z.of_nat m) - 1) * density (nth k ts dt))%Q).
    { eapply Qle_trans; [exact Ht|]. assert (Hm1 : (0 <= inject_Z (Z.of_nat m) - 1)%Q).
      { change 1%Q with (inject_Z 1). unfold Qminus. rewrite <- inject_Z_opp, <- inject_Z_plus. change 0%Q with (inject_Z 0). rewrite <- Zle_Qle. lia. }
      nra. }
    apply (qle_scale _ _ P HP) in Hle. unfold ts_density in Hle.
    rewrite (qsum_scale _ density (fun t => t_cost t * (P / t_deadline t)) P ts Hsc) in Hle.
    rewrite zsum_map_nth with (d := dt) in Hle.
    rewrite Zle_Qle. unfold v. eapply Qle_trans; [exact Hle|]. apply Qle_lteq. right.
    pose proof (Hsc _ Hk') as Ek. unfold Z.sub. rewrite !inject_Z_plus, !inject_Z_opp, !inject_Z_mult, !inject_Z_plus, !inject_Z_opp.
    rewrite inject_Z_mult in Ek. rewrite <- Ek. change (inject_Z 1) with 1%Q. ring. }
  exists (Z.to_nat (due (map e_of ts) s j)).
  assert (Hdue : 0 <= due (map e_of ts) s j).
  { unfold due. fold (et (map e_of ts) (fst j)). rewrite et_of. rewrite map_length in Hj. destruct (Hwi _ Hj) as [_ [X _]]. cbn. lia. }
  split.
  - rewrite Z2Nat.id by assumption. unfold due. fold (et (map e_of ts) (fst j)). rewrite <- Ee. lia.
  - destruct j as [i h]. cbn [fst snd] in *.
    apply (gfb_complete (map e_of ts) m s sc We Hl Hv Hp Hm) with (P := P) (v := v).
    + intros i0 Hi0. rewrite map_length in Hi0. rewrite et_of. cbn. destruct (Hwi _ Hi0) as [_ [X _]]. specialize (Hci _ Hi0). unfold constrained in Hci. lia.
    + assumption.
    + intros i0 Hi0. rewrite map_length in Hi0. rewrite et_of. cbn. apply Hvi. assumption.
    + intros k Hk. rewrite map_length in *. specialize (Htest k Hk). rewrite et_of. cbn [e_of e_cost].
      rewrite (sumf_ext _ (fun i => t_cost (nth i ts dt) * v i)); [exact Htest|]. intros i0 _. rewrite et_of. reflexivity.
    + assumption.
    + rewrite Z2Nat.id by assumption. reflexivity.
Qed.

(** ** The common core of BCL, BCL-iterative and RTA *)
Lemma wl_le : forall C T N y, 0 <= C <= T -> 1 <= T -> 0 <= N -> y <= (N + 1) * T ->
  wl C T y <= N * C + Z.min C (Z.max 0 (y - N * T)).
Proof.
  intros C T N y HC HT HN. revert y. pattern N. apply natlike_ind; [| |assumption].
  - intros y H. destruct (Z.lt_ge_cases y 0).
    + unfold wl. destruct (Z.ltb_spec y 0); lia.
    + destruct (Z.lt_ge_cases y T); [rewrite wl_small by lia; lia|].
      assert (y = T) by lia. subst y. rewrite wl_step by lia. rewrite Z.sub_diag, wl_small by lia. lia.
  - intros k Hk IH y H. destruct (Z.lt_ge_cases y T).
    + destruct (Z.lt_ge_cases y 0).
      * unfold wl. destruct (Z.ltb_spec y 0); [|lia]. nia.
      * rewrite wl_small by lia. nia.
    + rewrite wl_step by lia. specialize (IH (y - T) ltac:(nia)).
      replace (y - Z.succ k * T) with (y - T - k * T) by (unfold Z.succ; ring). unfold Z.succ. nia.
Qed.

Definition resp (ts : taskset) (slack : list Z) (i : nat) : Z := t_deadline (nth i ts dt) - nth i slack 0.

(** interference assumed by the tests: any value at least the true bound *)
Lemma core_sound : forall (m : nat) ts slack, Forall wf_task ts -> Forall constrained ts ->
  length slack = length ts ->
  (forall i, (i < length ts)%nat -> 0 <= nth i slack 0 /\ t_cost (nth i ts dt) <= resp ts slack i) ->
  (forall k, (k < length ts)%nat -> exists W : nat -> Z,
     (forall i, (i < length ts)%nat -> i <> k ->
        Z.min (interfering (map e_of ts) (resp ts slack) i k) (resp ts slack k - t_cost (nth k ts dt) + 1) <= W i) /\
     sumf (fun i => if Nat.eqb i k then 0 else W i) (length ts) < Z.of_nat m * (resp ts slack k - t_cost (nth k ts dt) + 1)) ->
  forall s sc, legal_edf (map e_of ts) s -> gvalid (length (map e_of ts)) m s sc -> gedf (map e_of ts) m s sc ->
  forall j, (fst j < length ts)%nat -> responds s sc j (resp ts slack (fst j)).
Proof.
  intros m ts slack Hw Hc Hls Hr Hfix s sc Hl Hv Hp [k q] Hk. cbn [fst snd] in *.
  exists (Z.to_nat (Z.of_nat (arr s k q) + resp ts slack k)).
  assert (Hw' : forall i, (i < length ts)%nat -> wf_task (nth i ts dt)) by (intros; apply Forall_nth_lt; assumption).
  assert (Hc' : forall i, (i < length ts)%nat -> constrained (nth i ts dt)) by (intros; apply Forall_nth_lt; assumption).
  assert (N0 : 0 <= resp ts slack k) by (destruct (Hr k Hk); destruct (Hw' k Hk); lia).
  split; [rewrite Z2Nat.id by lia; cbn; lia|].
  apply (response_bound (map e_of ts) m s sc (wf_e_of ts Hw) Hl Hv Hp (resp ts slack)).
  - intros i Hi. rewrite map_length in Hi. rewrite et_of. cbn [e_of e_cost e_deadline e_period].
    destruct (Hr i Hi) as [A1 A2]. specialize (Hc' i Hi). unfold constrained in Hc'. unfold resp in *. lia.
  - intros i Hi. rewrite map_length in Hi. destruct (Hfix i Hi) as [W [W1 W2]]. rewrite map_length, et_of. cbn [e_of e_cost].
    eapply Z.le_lt_trans; [|exact W2]. apply sumf_le. intros a Ha. destruct (Nat.eqb_spec a i); [lia|]. apply W1; assumption.
  - rewrite map_length. assumption.
  - rewrite Z2Nat.id by lia. reflexivity.
Qed.

Lemma interfering_le_due : forall ts slack i k,
  interfering (map e_of ts) (resp ts slack) i k <=
  wl (t_cost (nth i ts dt)) (t_period (nth i ts dt)) (t_deadline (nth k ts dt) - nth i slack 0).
Proof.
  intros. unfold interfering. rewrite !et_of. cbn [e_of e_cost e_deadline e_period]. unfold resp at 1.
  replace (t_deadline (nth i ts dt) - (t_deadline (nth i ts dt) - nth i slack 0)) with (nth i slack 0) by ring. apply Z.le_min_l.
Qed.

(** ** BCL *)
Lemma count_large : forall (m x : Z) (l : list Z), 0 <= x -> Forall (fun w => 0 <= w) l ->
  (zsum (map (fun w => Z.min w x) l) < m * x \/
   zsum (map (fun w => Z.min w x) l) = m * x /\ exists w, In w l /\ 0 < w <= x) ->
  zsum (map (fun w => Z.min w (x + 1)) l) < m * (x + 1).
Proof.
  intros m x l Hx Hl H.
  set (p := zsum (map (fun w => if x <? w then 1 else 0) l)).
  assert (E : zsum (map (fun w => Z.min w (x + 1)) l) = zsum (map (fun w => Z.min w x) l) + p).
  { unfold p. rewrite <- zsum_map_add. apply zsum_map_ext. intros w _. destruct (Z.ltb_spec x w); lia. }
  assert (B : p * x <= zsum (map (fun w => Z.min w x) l)).
  { unfold p. rewrite Z.mul_comm, <- zsum_map_mul. apply zsum_map_le. intros w Hw. rewrite Forall_forall in Hl. specialize (Hl w Hw).
    destruct (Z.ltb_spec x w); lia. }
  destruct H as [H|[H [w [Hw1 Hw2]]]].
  - assert (p * x < m * x) by lia. assert (p < m) by nia. lia.
  - assert (B' : p * x + w <= zsum (map (fun w => Z.min w x) l)).
    { apply in_split in Hw1. destruct Hw1 as [l1 [l2 ->]]. unfold p. rewrite !map_app, !zsum_app. cbn [map zsum].
      apply Forall_app in Hl. destruct Hl as [Hl1 Hl2]. inversion Hl2 as [|? ? _ Hl3]. subst.
      assert (G : forall l, Forall (fun w => 0 <= w) l -> zsum (map (fun w => if x <? w then 1 else 0) l) * x <= zsum (map (fun w => Z.min w x) l)).
      { intros l0 H0. rewrite Z.mul_comm, <- zsum_map_mul. apply zsum_map_le. intros a Ha. rewrite Forall_forall in H0. specialize (H0 a Ha).
        destruct (Z.ltb_spec x a); lia. }
      pose proof (G l1 Hl1). pose proof (G l2 Hl3). destruct (Z.ltb_spec x w); lia. }
    assert (p * x < m * x) by lia. assert (p < m) by nia. lia.
Qed.

Lemma bcl_N_spec : forall tk ti, wf_task tk -> wf_task ti -> constrained ti ->
  0 <= bcl_N tk ti /\ t_deadline tk <= (bcl_N tk ti + 1) * t_period ti.
Proof.
  intros tk ti [K1 [K2 K3]] [I1 [I2 I3]] Hc. unfold constrained in Hc. unfold bcl_N.
  pose proof (div_spec (t_deadline tk - t_deadline ti) (t_period ti) ltac:(lia)) as X. split; nia.
Qed.

Lemma min_q_scale : forall a b p x y, 0 < p -> (a * inject_Z p == inject_Z x)%Q -> (b * inject_Z p == inject_Z y)%Q ->
  (min_q a b * inject_Z p == inject_Z (Z.min x y))%Q.
Proof.
  intros a b p x y Hp Ha Hb. unfold min_q. destruct (Qle_bool a b) eqn:E; cbn [negb].
  - apply Qle_bool_iff in E. apply (qle_scale _ _ p Hp) in E. rewrite Ha, Hb, <- Zle_Qle in E. rewrite Z.min_l by assumption. exact Ha.
  - assert (L : (b <= a)%Q) by (apply Qlt_le_weak, Qnot_le_lt; intros X; apply Qle_bool_iff in X; congruence).
    apply (qle_scale _ _ p Hp) in L. rewrite Ha, Hb, <- Zle_Qle in L. rewrite Z.min_r by assumption. exact Hb.
Qed.

Lemma qle_bool_scale : forall a b p x y, 0 < p -> (a * inject_Z p == inject_Z x)%Q -> (b * inject_Z p == inject_Z y)%Q ->
  Qle_bool a b = (x <=? y).
Proof.
  intros a b p x y Hp Ha Hb. apply eq_true_iff_eq. rewrite Qle_bool_iff, Z.leb_le, Zle_Qle, <- Ha, <- Hb.
  split; [apply qle_scale; assumption|]. intros H. apply Qmult_le_r in H; [assumption|]. change 0%Q with (inject_Z 0). rewrite <- Zlt_Qlt. assumption.
Qed.

Lemma qeq_bool_scale : forall a b p x y, 0 < p -> (a * inject_Z p == inject_Z x)%Q -> (b * inject_Z p == inject_Z y)%Q ->
  Qeq_bool a b = (x =? y).
Proof.
  intros a b p x y Hp Ha Hb. apply eq_true_iff_eq. rewrite Qeq_bool_iff, Z.eqb_eq, <- inject_Z_injective, <- Ha, <- Hb.
  split; [intros ->; reflexivity|]. intros H. apply Qmult_inj_r in H; [assumption|]. change 0%Q with (inject_Z 0). rewrite inject_Z_injective. lia.
Qed.

(** The test in integers: multiplied by the deadline of the analysed task. *)
Lemma bcl_task_int : forall T k tk m, wf_task tk -> constrained tk ->
  let x := t_deadline tk - t_cost tk in
  let W := map (bcl_work tk) (others k T) in
  bcl_task T k tk m = (zsum (map (fun w => Z.min w x) W) <? m * x) ||
    ((zsum (map (fun w => Z.min w x) W) =? m * x) && existsb (fun w => (0 <? w) && (w <=? x)) W).
Proof.
  intros T k tk m [K1 [K2 K3]] Hc x W. unfold bcl_task. rewrite density_constrained by assumption.
  set (D := t_deadline tk) in *. set (l := zdivq (t_cost tk) D).
  assert (El : ((1 - l) * inject_Z D == inject_Z x)%Q).
  { unfold x, l. unfold Z.sub. rewrite inject_Z_plus, inject_Z_opp, <- (zdivq_scale (t_cost tk) D) by lia. ring. }
  assert (Eb : forall t, (bcl_beta tk t * inject_Z D == inject_Z (bcl_work tk t))%Q) by (intros; apply zdivq_scale; lia).
  assert (Es : (qsum (map (fun b => min_q b (1 - l)) (map (bcl_beta tk) (others k T))) * inject_Z D == inject_Z (zsum (map (fun w => Z.min w x) W)))%Q).
  { unfold W. rewrite !map_map. apply qsum_scale with (g := fun t => Z.min (bcl_work tk t) x). intros t _. apply min_q_scale; [lia|apply Eb|exact El]. }
  assert (Ec : (inject_Z m * (1 - l) * inject_Z D == inject_Z (m * x))%Q) by (rewrite inject_Z_mult, <- El; ring).
  rewrite (qle_bool_scale _ _ D _ _ ltac:(lia) Ec Es), (qeq_bool_scale _ _ D _ _ ltac:(lia) Es Ec).
  f_equal; [rewrite Z.leb_antisym, negb_involutive; reflexivity|]. f_equal.
  unfold W. clear - Eb El K2. induction (others k T) as [|t r IH]; [reflexivity|]. cbn [map existsb]. rewrite IH. f_equal.
  rewrite (qle_bool_scale _ _ D _ _ ltac:(lia) (Eb t) El).
  rewrite (qle_bool_scale (bcl_beta tk t) 0 D _ 0 ltac:(lia) (Eb t)) by (cbn; ring). rewrite Z.leb_antisym, negb_involutive. reflexivity.
Qed.

Lemma bcl_work_ge : forall tk ti, wf_task tk -> wf_task ti -> constrained ti -> feasible ti ->
  wl (t_cost ti) (t_period ti) (t_deadline tk) <= bcl_work tk ti.
Proof.
  intros tk ti Hk Hi Hc Hf. destruct (bcl_N_spec tk ti Hk Hi Hc) as [N1 N2]. unfold bcl_work. destruct Hi as [I1 [I2 I3]].
  unfold constrained, feasible in *. apply wl_le; lia.
Qed.

Lemma nth_zero : forall (ts : taskset) i, nth i (map (fun _ => 0) ts) 0 = 0.
Proof. induction ts as [|t ts IH]; intros [|i]; cbn; auto. Qed.

Lemma bcl_sound : forall (m : nat) ts, Forall wf_task ts -> Forall constrained ts -> Forall feasible ts ->
  bcl_test (Z.of_nat m) ts = true -> gedf_schedulable (map e_of ts) m.
Proof.
  intros m ts Hw Hc Hf Ht s sc Hl Hv Hp j e He.
  assert (Hj : (fst j < length ts)%nat) by (rewrite <- (map_length e_of); apply nth_error_Some; congruence).
  assert (Ee : e = et (map e_of ts) (fst j)) by (unfold et; symmetry; apply nth_error_nth; assumption).
  set (slack := map (fun _ => 0) ts).
  assert (Hs : forall i, nth i slack 0 = 0).
  { intros i. apply nth_zero. }
  assert (Hres : forall i, resp ts slack i = t_deadline (nth i ts dt)) by (intros; unfold resp; rewrite Hs; lia).
  rewrite Ee, et_of. cbn [e_of e_deadline]. rewrite <- Hres.
  assert (Hw' : forall i, (i < length ts)%nat -> wf_task (nth i ts dt)) by (intros; apply Forall_nth_lt; assumption).
  assert (Hc' : forall i, (i < length ts)%nat -> constrained (nth i ts dt)) by (intros; apply Forall_nth_lt; assumption).
  assert (Hf' : forall i, (i < length ts)%nat -> feasible (nth i ts dt)) by (intros; apply Forall_nth_lt; assumption).
  apply (core_sound m ts slack Hw Hc); try assumption.
  - unfold slack. apply map_length.
  - intros i Hi. rewrite Hs, Hres. specialize (Hf' i Hi). unfold feasible in Hf'. lia.
  - intros k Hk. set (tk := nth k ts dt). set (x := t_deadline tk - t_cost tk).
    exists (fun i => Z.min (bcl_work tk (nth i ts dt)) (x + 1)). split.
    + intros i Hi Hik. rewrite Hres. fold tk x. apply Z.min_le_compat_r. eapply Z.le_trans; [apply interfering_le_due|].
      rewrite Hs, Z.sub_0_r. apply bcl_work_ge; auto. apply Hw'; assumption.
    + rewrite Hres. fold tk x. rewrite <- (sumf_others task dt (fun t => Z.min (bcl_work tk t) (x + 1)) ts k).
      rewrite <- map_map with (g := fun w => Z.min w (x + 1)).
      apply count_large.
      * specialize (Hf' k Hk). unfold feasible in Hf'. unfold x, tk. lia.
      * apply Forall_forall. intros w Hin. apply in_map_iff in Hin. destruct Hin as [t [<- Hin]]. apply in_others in Hin.
        rewrite Forall_forall in Hw, Hc, Hf. pose proof (bcl_work_ge tk t (Hw' k Hk) (Hw t Hin) (Hc t Hin) (Hf t Hin)).
        destruct (Hw t Hin) as [T1 [T2 T3]]. pose proof (wl_nonneg (t_cost t) (t_period t) (t_deadline tk) T1 T3). lia.
      * unfold bcl_test in Ht. rewrite forallb_forall in Ht. specialize (Ht (k, tk)).
        assert (In (k, tk) (indexed ts)) as Hin by (apply indexed_in; apply nth_error_nth'; assumption).
        specialize (Ht Hin). cbn [fst snd] in Ht. rewrite bcl_task_int in Ht by (apply Hw' || apply Hc'; assumption). cbn zeta in Ht. fold x in Ht.
        apply orb_true_iff in Ht. destruct Ht as [Ht|Ht]; [left; apply Z.ltb_lt; exact Ht|right].
        apply andb_true_iff in Ht. destruct Ht as [Ht1 Ht2]. split; [apply Z.eqb_eq; exact Ht1|].
        apply existsb_exists in Ht2. destruct Ht2 as [w [Hw1 Hw2]]. exists w. split; [assumption|]. apply andb_true_iff in Hw2.
        destruct Hw2 as [A1 A2]. apply Z.ltb_lt in A1. apply Z.leb_le in A2. lia.
Qed.
