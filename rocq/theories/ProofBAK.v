(** Soundness of the BAK test for constrained deadlines. *)
From Coq Require Import ZArith QArith Qround List Bool Lia Lqa Wf_nat.
From Verif Require Import Base ModelTasks SpecUni SpecQPA SpecGlobal ProofUni ProofEDF ProofGlobal ProofGFB ModelGEDF ProofGEDF ProofBusy.
Import ListNotations.
Open Scope Z_scope.

(** To show schedulability it is enough to exclude a first deadline miss. *)
Lemma no_first_miss : forall (m : nat) ts, Forall wf_task ts ->
  (forall s sc, legal_edf (map e_of ts) s -> gvalid (length (map e_of ts)) m s sc -> gedf (map e_of ts) m s sc ->
     forall d, (forall i h d', (i < length (map e_of ts))%nat -> (d' < d)%nat -> Z.of_nat d' = due (map e_of ts) s (i, h) -> gcompleted s sc (i, h) d') ->
     forall k q, (k < length (map e_of ts))%nat -> due (map e_of ts) s (k, q) = Z.of_nat d -> gservice sc (k, q) d < Z.of_nat (cst s k q) -> False) ->
  gedf_schedulable (map e_of ts) m.
Proof.
  intros m ts Hw H s sc Hl Hv Hp j e He.
  assert (Hj : (fst j < length (map e_of ts))%nat) by (apply nth_error_Some; congruence).
  assert (Ee : e = et (map e_of ts) (fst j)) by (unfold et; symmetry; apply nth_error_nth; assumption).
  specialize (H s sc Hl Hv Hp).
  assert (G : forall d i h, (i < length (map e_of ts))%nat -> Z.of_nat d = due (map e_of ts) s (i, h) -> gcompleted s sc (i, h) d).
  { induction d as [d IH] using (well_founded_induction lt_wf). intros i h Hi E.
    destruct (Z.le_gt_cases (Z.of_nat (cst s i h)) (gservice sc (i, h) d)) as [X|X]; [exact X|exfalso].
    apply (H d) with (k := i) (q := h); [|assumption|symmetry; assumption|assumption].
    intros i' h' d' Hi' Hd' E'. apply IH; assumption. }
  exists (Z.to_nat (due (map e_of ts) s j)).
  assert (Hd : 0 <= due (map e_of ts) s j).
  { unfold due. fold (et (map e_of ts) (fst j)). rewrite et_of. rewrite map_length in Hj.
    destruct (Forall_nth_lt _ _ _ dt _ Hw Hj) as [_ [X _]]. cbn. lia. }
  split.
  - rewrite Z2Nat.id by assumption. unfold due. fold (et (map e_of ts) (fst j)). rewrite <- Ee. lia.
  - destruct j as [i h]. apply G; [assumption|]. rewrite Z2Nat.id by assumption. reflexivity.
Qed.

(** ** Arithmetic over the rationals *)
Lemma inject_sub : forall a b, (inject_Z (a - b) == inject_Z a - inject_Z b)%Q.
Proof. intros. unfold Z.sub. rewrite inject_Z_plus, inject_Z_opp. ring. Qed.

Lemma zq_le : forall a b, a <= b -> (inject_Z a <= inject_Z b)%Q.
Proof. intros. rewrite <- Zle_Qle. assumption. Qed.

Lemma zq_lt : forall a b, a < b -> (inject_Z a < inject_Z b)%Q.
Proof. intros. rewrite <- Zlt_Qlt. assumption. Qed.

Lemma zdivq_nonneg : forall a b, 0 <= a -> 1 <= b -> (0 <= zdivq a b)%Q.
Proof.
  intros a b Ha Hb. pose proof (zdivq_scale a b ltac:(lia)) as E. pose proof (zq_le 0 a Ha) as X. pose proof (zq_le 1 b Hb) as Y.
  change (inject_Z 0) with 0%Q in X. change (inject_Z 1) with 1%Q in Y.
  destruct (Qlt_le_dec (zdivq a b) 0) as [N|N]; [exfalso|assumption]. nra.
Qed.

Open Scope Q_scope.
Lemma bak_arith : forall (u l g v : Q) (C T D Ck Dk Dl W N phi : Z),
  (0 <= C)%Z -> (1 <= D)%Z -> (D <= T)%Z -> (0 <= Ck)%Z -> (1 <= Dk)%Z -> (Dk <= Dl)%Z ->
  u * inject_Z T == inject_Z C -> l * inject_Z Dk == inject_Z Ck -> g * inject_Z Dk == inject_Z (T - D) ->
  v * inject_Z Dk == inject_Z C - l * inject_Z T ->
  0 <= u -> 0 <= g ->
  (0 <= N)%Z -> (0 <= phi)%Z -> (W <= N * C)%Z ->
  (N = 0 \/ (N - 1) * T + D <= Dl + phi /\ phi < D /\ Dk * W <= Dk * (N * C) - Ck * phi)%Z ->
  (u <= l -> inject_Z W <= u * (1 + g) * inject_Z Dl) /\
  (l < u -> inject_Z W <= (u * (1 + g) + v) * inject_Z Dl).
Proof.
  intros u l g v C T D Ck Dk Dl W N phi HC HD HDT HCk HDk HDl Eu El Eg Ev Hu Hg HN Hphi HW H.
  pose proof (zq_le 1 Dk HDk) as K1. pose proof (zq_le Dk Dl HDl) as K2. change (inject_Z 1) with 1 in K1.
  pose proof (zq_le 1 T ltac:(lia)) as T1. change (inject_Z 1) with 1 in T1.
  destruct H as [-> |[H1 [H2 H3]]].
  - assert (W0 : inject_Z W <= 0) by (change 0 with (inject_Z 0); apply zq_le; lia).
    assert (P1 : 0 <= u * (1 + g) * inject_Z Dl) by (apply Qmult_le_0_compat; [apply Qmult_le_0_compat|]; lra).
    split; [lra|]. intros Hlu. assert (0 <= v * inject_Z Dk) by (rewrite Ev, <- Eu; nra).
    assert (0 <= v) by (destruct (Qlt_le_dec v 0); [exfalso; nra|assumption]). nra.
  - assert (A1 : inject_Z N * inject_Z T <= inject_Z Dl + inject_Z phi + inject_Z (T - D)).
    { rewrite <- inject_Z_mult, <- !inject_Z_plus. apply zq_le. lia. }
    assert (A2 : inject_Z Dk * inject_Z W <= inject_Z Dk * (inject_Z N * inject_Z C) - inject_Z Ck * inject_Z phi).
    { rewrite <- !inject_Z_mult, <- inject_sub. apply zq_le. lia. }
    assert (A3 : inject_Z W <= inject_Z N * inject_Z C - l * inject_Z phi).
    { rewrite <- El in A2. assert (Z1 : inject_Z Dk * inject_Z W <= inject_Z Dk * (inject_Z N * inject_Z C - l * inject_Z phi)).
      { eapply Qle_trans; [exact A2|]. apply Qle_lteq. right. ring. }
      apply Qmult_le_l in Z1; [assumption|lra]. }
    assert (A4 : inject_Z N * inject_Z C <= u * (inject_Z Dl + inject_Z phi + inject_Z (T - D))).
    { rewrite <- Eu. setoid_replace (inject_Z N * (u * inject_Z T)) with (u * (inject_Z N * inject_Z T)) by ring.
      rewrite !(Qmult_comm u). apply Qmult_le_compat_r; assumption. }
    assert (A5 : inject_Z (T - D) <= g * inject_Z Dl).
    { rewrite <- Eg, !(Qmult_comm g). apply Qmult_le_compat_r; assumption. }
    assert (A6 : u * inject_Z (T - D) <= u * (g * inject_Z Dl)) by (rewrite !(Qmult_comm u); apply Qmult_le_compat_r; assumption).
    assert (P0 : 0 <= inject_Z phi) by (change 0 with (inject_Z 0); apply zq_le; assumption).
    assert (PT : inject_Z phi <= inject_Z T) by (apply zq_le; lia).
    assert (E : inject_Z W <= u * (1 + g) * inject_Z Dl + (u - l) * inject_Z phi) by lra.
    split; intros Hul.
    + assert (0 <= (l - u) * inject_Z phi) by (apply Qmult_le_0_compat; lra). lra.
    + assert (B1 : (u - l) * inject_Z phi <= (u - l) * inject_Z T) by (rewrite !(Qmult_comm (u - l)); apply Qmult_le_compat_r; lra).
      assert (B2 : (u - l) * inject_Z T == v * inject_Z Dk) by (rewrite Ev, <- Eu; ring).
      assert (B3 : 0 <= v * inject_Z Dk) by (rewrite <- B2; apply Qmult_le_0_compat; lra).
      assert (B4 : 0 <= v) by (destruct (Qlt_le_dec v 0); [exfalso; nra|assumption]).
      assert (B5 : v * inject_Z Dk <= v * inject_Z Dl) by (rewrite !(Qmult_comm v); apply Qmult_le_compat_r; assumption).
      lra.
Qed.
Close Scope Q_scope.

Lemma qsum_le : forall A (f g : A -> Q) l, (forall x, In x l -> (f x <= g x)%Q) -> (qsum (map f l) <= qsum (map g l))%Q.
Proof.
  intros A f g. induction l as [|x l IH]; intros H; cbn; [lra|]. pose proof (H x (or_introl eq_refl)).
  specialize (IH ltac:(intros; apply H; right; assumption)). unfold qsum in IH. lra.
Qed.

Lemma qsum_mul_r : forall A (f : A -> Q) c l, (qsum (map (fun x => f x * c) l) == qsum (map f l) * c)%Q.
Proof. intros A f c. induction l as [|x l IH]; cbn; [ring|]. unfold qsum in IH. rewrite IH. ring. Qed.

Lemma qsum_nth : forall (f : task -> Q) ts (g : nat -> Q), (forall i, (i < length ts)%nat -> (g i <= f (nth i ts dt))%Q) ->
  (qsum (map g (seq 0 (length ts))) <= qsum (map f ts))%Q.
Proof.
  intros f ts. assert (G : forall a (g : nat -> Q), (forall i, (i < length ts)%nat -> (g (a + i)%nat <= f (nth i ts dt))%Q) ->
    (qsum (map g (seq a (length ts))) <= qsum (map f ts))%Q).
  { induction ts as [|t r IH]; intros a g H; cbn; [lra|]. pose proof (H 0%nat ltac:(cbn; lia)) as H0. cbn in H0. rewrite Nat.add_0_r in H0.
    specialize (IH (S a) g). assert (X : (qsum (map g (seq (S a) (length r))) <= qsum (map f r))%Q).
    { apply IH. intros i Hi. specialize (H (S i) ltac:(cbn; lia)). rewrite Nat.add_succ_r in H. exact H. }
    unfold qsum in X. lra. }
  intros g H. apply G. intros i Hi. apply H. assumption.
Qed.

Lemma qsum_inject : forall (f : nat -> Z) n, (qsum (map (fun i => inject_Z (f i)) (seq 0 n)) == inject_Z (sumf f n))%Q.
Proof.
  intros f n. rewrite sumf_seq. induction (seq 0 n) as [|x l IH]; cbn; [reflexivity|]. unfold qsum in IH. rewrite IH, <- inject_Z_plus. reflexivity.
Qed.

Lemma sumf_sub : forall f g n, sumf (fun i => f i - g i) n = sumf f n - sumf g n.
Proof. intros f g n. induction n; cbn [sumf]; lia. Qed.

Lemma bak_sound : forall (m : nat) ts, (2 <= m)%nat -> Forall wf_task ts -> Forall constrained ts ->
  bak_test (Z.of_nat m) ts = true -> gedf_schedulable (map e_of ts) m.
Proof.
  intros m ts Hm Hw Hc Ht. apply no_first_miss; [assumption|].
  intros s sc Hl Hv Hp d IH k q Hk Hdue Hmiss.
  assert (Hwi : forall i, (i < length ts)%nat -> wf_task (nth i ts dt)) by (intros; apply Forall_nth_lt; assumption).
  assert (Hci : forall i, (i < length ts)%nat -> constrained (nth i ts dt)) by (intros; apply Forall_nth_lt; assumption).
  pose proof Hk as Hk'. rewrite map_length in Hk'. set (tk := nth k ts dt) in *.
  unfold bak_test in Ht. rewrite forallb_forall in Ht. specialize (Ht tk (nth_In _ _ Hk')). unfold bak_task in Ht.
  destruct (Hwi k Hk') as [K1 [K2 K3]]. fold tk in K1, K2, K3. pose proof (Hci k Hk') as Kc. fold tk in Kc.
  rewrite (density_constrained tk Kc) in Ht. set (l := zdivq (t_cost tk) (t_deadline tk)) in *.
  pose proof (zdivq_scale (t_cost tk) (t_deadline tk) ltac:(lia)) as El. fold l in El.
  destruct (Qle_bool l 1) eqn:L1; cbn [negb] in Ht; [|discriminate]. apply Qle_bool_iff in L1. apply Qle_bool_iff in Ht.
  assert (Lck : t_cost tk <= t_deadline tk).
  { apply (qle_scale _ _ (t_deadline tk) ltac:(lia)) in L1. rewrite El, Qmult_1_l, <- Zle_Qle in L1. assumption. }
  assert (HDe : forall i, (i < length (map e_of ts))%nat -> 1 <= e_deadline (et (map e_of ts) i) <= e_period (et (map e_of ts) i)).
  { intros i Hi. rewrite map_length in Hi. rewrite et_of. cbn. destruct (Hwi i Hi) as [_ [X _]]. specialize (Hci i Hi). unfold constrained in Hci. lia. }
  destruct (extend (map e_of ts) m s sc (wf_e_of ts Hw) Hl Hv Hp ltac:(lia) HDe d IH k q Hk Hdue Hmiss (t_cost tk) (t_deadline tk)) as [t [Ht1 [Ho Hi]]].
  - lia.
  - lia.
  - rewrite et_of. cbn. fold tk. lia.
  - assumption.
  - unfold overloaded in Ho. apply Z.ltb_lt in Ho.
    pose proof (miss_arr (map e_of ts) s d k q Hdue) as Ed. cbv beta zeta in Ed. rewrite et_of in Ed. cbn [e_of e_deadline] in Ed. fold tk in Ed.
    set (Dl := Z.of_nat d - Z.of_nat t) in *. assert (HDl : t_deadline tk <= Dl) by (unfold Dl; lia).
    set (W := fun i => Stask (map e_of ts) s sc d i d - Stask (map e_of ts) s sc d i t).
    assert (HW : forall i, (i < length ts)%nat -> (inject_Z (W i) <= min_q 1 (bak_beta (nth i ts dt) tk l) * inject_Z Dl)%Q).
    { intros i Hi'. destruct (Hi i ltac:(rewrite map_length; assumption)) as [N [phi [HN [Hphi [HWN Hr]]]]]. fold (W i) in HWN, Hr.
      rewrite et_of in HWN, Hr. cbn [e_of e_cost e_period e_deadline] in HWN, Hr. set (ti := nth i ts dt) in *.
      destruct (Hwi i Hi') as [I1 [I2 I3]]. fold ti in I1, I2, I3. pose proof (Hci i Hi') as Ic. fold ti in Ic. unfold constrained in Ic.
      assert (B1 : (inject_Z (W i) <= inject_Z Dl)%Q).
      { apply zq_le. unfold W. pose proof (Stask_window (map e_of ts) m s sc Hv ltac:(lia) d i t d ltac:(lia)) as X. unfold Dl. lia. }
      assert (B2 : (inject_Z (W i) <= bak_beta ti tk l * inject_Z Dl)%Q).
      { unfold bak_beta. set (u := utilization ti).
        assert (Eu : (u * inject_Z (t_period ti) == inject_Z (t_cost ti))%Q) by (unfold u, utilization; apply zdivq_scale; lia).
        assert (Nu : (0 <= u)%Q) by (unfold u, utilization; apply zdivq_nonneg; lia).
        set (g := zdivq (t_period ti - t_deadline ti) (t_deadline tk)).
        assert (Eg : (g * inject_Z (t_deadline tk) == inject_Z (t_period ti - t_deadline ti))%Q) by (apply zdivq_scale; lia).
        assert (Ng : (0 <= g)%Q) by (apply zdivq_nonneg; lia).
        set (v := ((inject_Z (t_cost ti) - l * inject_Z (t_period ti)) / inject_Z (t_deadline tk))%Q).
        assert (Ev : (v * inject_Z (t_deadline tk) == inject_Z (t_cost ti) - l * inject_Z (t_period ti))%Q).
        { unfold v. field. intros X. change 0%Q with (inject_Z 0) in X. rewrite inject_Z_injective in X. lia. }
        destruct (bak_arith u l g v (t_cost ti) (t_period ti) (t_deadline ti) (t_cost tk) (t_deadline tk) Dl (W i) N phi
          I1 I2 Ic K1 K2 HDl Eu El Eg Ev Nu Ng HN Hphi HWN) as [A1 A2].
        - destruct Hr as [Z0|[R1 [R2 [_ R3]]]]; [left; assumption|right]. split; [assumption|]. split; assumption.
        - destruct (Qle_bool u l) eqn:Eul; cbn [negb].
          + apply Qle_bool_iff in Eul. apply A1. assumption.
          + apply A2. apply Qnot_le_lt. intros X. apply Qle_bool_iff in X. congruence. }
      unfold min_q. destruct (negb (Qle_bool 1 (bak_beta ti tk l))); [assumption|]. rewrite Qmult_1_l. assumption. }
    assert (X : (inject_Z (sumf W (length ts)) <= qsum (map (fun t_i => min_q 1 (bak_beta t_i tk l)) ts) * inject_Z Dl)%Q).
    { rewrite <- qsum_inject, <- qsum_mul_r. apply qsum_nth. exact HW. }
    assert (Y : (inject_Z (sumf W (length ts)) <= (inject_Z (Z.of_nat m) - (inject_Z (Z.of_nat m) - 1) * l) * inject_Z Dl)%Q).
    { eapply Qle_trans; [exact X|]. apply qle_scale; [lia|exact Ht]. }
    assert (Es : sumf W (length ts) = Sall (map e_of ts) s sc d d - Sall (map e_of ts) s sc d t).
    { unfold W. rewrite sumf_sub. rewrite !Sall_task, map_length. reflexivity. }
    rewrite Es in Y. apply (qle_scale _ _ (t_deadline tk) ltac:(lia)) in Y.
    assert (E2 : ((inject_Z (Z.of_nat m) - (inject_Z (Z.of_nat m) - 1) * l) * inject_Z Dl * inject_Z (t_deadline tk) ==
      inject_Z ((Z.of_nat m * t_deadline tk - (Z.of_nat m - 1) * t_cost tk) * Dl))%Q).
    { rewrite inject_Z_mult, inject_sub, !inject_Z_mult, inject_sub, <- El. change (inject_Z 1) with 1%Q. ring. }
    rewrite E2, <- inject_Z_mult, <- Zle_Qle in Y. lia.
Qed.
