(** The forward-forced demand bound function: closed form, convexity between
    deadlines, and the linear bound. *)
From Coq Require Import ZArith QArith Qround List Bool Lia Lqa.
From Verif Require Import Base ModelTasks SpecTasks ProofTasks ProofGlobal ModelGEDF ProofGEDF ProofBAK ProofBARTop ModelFFDBF.
Import ListNotations.
Open Scope Z_scope.

Definition pos_part (x : Q) : Q := if Qle_bool x 0 then 0%Q else x.

Lemma pos_part_ge : forall x, (0 <= pos_part x)%Q /\ (x <= pos_part x)%Q.
Proof.
  intros x. unfold pos_part. destruct (Qle_bool x 0) eqn:E; [apply Qle_bool_iff in E; lra|].
  assert (~ x <= 0)%Q by (intros H; apply Qle_bool_iff in H; congruence). lra.
Qed.

Lemma pos_part_lub : forall x y, (0 <= y)%Q -> (x <= y)%Q -> (pos_part x <= y)%Q.
Proof. intros x y. unfold pos_part. destruct (Qle_bool x 0); auto. Qed.

Lemma pos_part_pos : forall x, (0 <= x)%Q -> (pos_part x == x)%Q.
Proof. intros x H. apply Qle_antisym; [apply pos_part_lub; lra|apply pos_part_ge]. Qed.

Lemma pos_part_neg : forall x, (x <= 0)%Q -> (pos_part x == 0)%Q.
Proof. intros x H. apply Qle_antisym; [apply pos_part_lub; lra|apply pos_part_ge]. Qed.

Lemma qle_false : forall a b, Qle_bool a b = false -> (b < a)%Q.
Proof. intros a b H. apply Qnot_le_lt. intros X. apply Qle_bool_iff in X. congruence. Qed.

Lemma floor_unique : forall x q, (inject_Z q <= x)%Q -> (x < inject_Z (q + 1))%Q -> Qfloor x = q.
Proof.
  intros x q H1 H2. pose proof (Qfloor_le x) as F1. pose proof (Qlt_floor x) as F2.
  assert (A : (inject_Z (Qfloor x) < inject_Z (q + 1))%Q) by lra. assert (B : (inject_Z q < inject_Z (Qfloor x + 1))%Q) by lra.
  rewrite <- Zlt_Qlt in A, B. lia.
Qed.

Lemma div_ge : forall x y z, (0 < z)%Q -> (y * z <= x)%Q -> (y <= x / z)%Q.
Proof. intros x y z Hz H. apply Qle_shift_div_l; assumption. Qed.
Lemma div_lt : forall x y z, (0 < z)%Q -> (x < y * z)%Q -> (x / z < y)%Q.
Proof. intros x y z Hz H. apply Qlt_shift_div_r; assumption. Qed.

Section Task.
  Variable t : task.
  Hypothesis HC : 0 <= t_cost t.
  Hypothesis HD : 1 <= t_deadline t <= t_period t.
  Let C := inject_Z (t_cost t).
  Let D := inject_Z (t_deadline t).
  Let T := inject_Z (t_period t).

  Lemma CDT : (0 <= C)%Q /\ (1 <= D)%Q /\ (D <= T)%Q.
  Proof.
    unfold C, D, T. change 0%Q with (inject_Z 0). change 1%Q with (inject_Z 1). rewrite <- !Zle_Qle. lia.
  Qed.

  Section Speed.
    Variable s : Q.
    Hypothesis Hs : (0 < s)%Q.
    Hypothesis Hd : (C <= s * D)%Q.

    (** closed form around the j-th deadline *)
    Lemma ff_form : forall j x, 0 <= j -> (0 <= x)%Q -> (inject_Z j * T + D - T <= x)%Q -> (x <= inject_Z j * T + D)%Q ->
      (ffdbf t x s == inject_Z j * C + pos_part (C - (inject_Z j * T + D - x) * s))%Q.
    Proof.
      intros j x Hj Hx Lo Hi. destruct CDT as [C0 [D1 DT]]. assert (T0 : (0 < T)%Q) by lra.
      assert (Hj0 : (0 <= inject_Z j)%Q) by (change 0%Q with (inject_Z 0); rewrite <- Zle_Qle; assumption).
      unfold ffdbf. fold T. destruct (Qlt_le_dec x (inject_Z j * T)) as [L|L].
      - (* before the release of job j *)
        assert (Eq : Qfloor (x / T) = j - 1).
        { apply floor_unique; [apply div_ge; [assumption|]|apply div_lt; [assumption|]].
          - rewrite inject_sub. change (inject_Z 1) with 1%Q. lra.
          - replace (j - 1 + 1) with j by lia. assumption. }
        rewrite Eq. cbv zeta. fold C D. rewrite (proj2 (Qle_bool_iff D _)).
        2:{ rewrite inject_sub. change (inject_Z 1) with 1%Q. lra. }
        rewrite inject_Z_mult, inject_sub. fold C. rewrite pos_part_neg; [change (inject_Z 1) with 1%Q; ring|].
        assert (X : (D * s <= (inject_Z j * T + D - x) * s)%Q) by (apply Qmult_le_compat_r; lra). lra.
      - destruct (Qlt_le_dec x (inject_Z j * T + T)) as [L2|L2].
        + assert (Eq : Qfloor (x / T) = j).
          { apply floor_unique; [apply div_ge; assumption|apply div_lt; [assumption|]]. rewrite inject_Z_plus. change (inject_Z 1) with 1%Q. lra. }
          rewrite Eq. cbv zeta. fold C D. rewrite inject_Z_mult. fold C.
          destruct (Qle_bool D (x - inject_Z j * T)) eqn:E1.
          * apply Qle_bool_iff in E1. assert (Ex : (x == inject_Z j * T + D)%Q) by lra.
            rewrite pos_part_pos; rewrite Ex; [ring|]. setoid_replace (C - (inject_Z j * T + D - (inject_Z j * T + D)) * s)%Q with C by ring. assumption.
          * apply qle_false in E1. destruct (Qle_bool (D - C / s) (x - inject_Z j * T)) eqn:E2.
            -- apply Qle_bool_iff in E2. rewrite pos_part_pos; [ring|].
               assert (X : ((D - (x - inject_Z j * T)) * s <= C / s * s)%Q) by (apply Qmult_le_compat_r; lra).
               setoid_replace (C / s * s)%Q with C in X by (field; lra). lra.
            -- apply qle_false in E2. rewrite pos_part_neg; [ring|].
               assert (X : (C / s * s < (D - (x - inject_Z j * T)) * s)%Q) by (apply Qmult_lt_compat_r; lra).
               setoid_replace (C / s * s)%Q with C in X by (field; lra). lra.
        + (* x is the end of the period, and the deadline *)
          assert (Ex : (x == inject_Z j * T + T)%Q) by lra. assert (ED : (D == T)%Q) by lra.
          assert (Eq : Qfloor (x / T) = j + 1).
          { apply floor_unique; [apply div_ge; [assumption|]|apply div_lt; [assumption|]]; rewrite !inject_Z_plus; change (inject_Z 1) with 1%Q; lra. }
          rewrite Eq. cbv zeta. fold C D. rewrite inject_Z_mult, inject_Z_plus. fold C. change (inject_Z 1) with 1%Q.
          rewrite (pos_part_pos (C - (inject_Z j * T + D - x) * s)) by (assert (Z0 : (inject_Z j * T + D - x == 0)%Q) by lra; rewrite Z0; lra).
          destruct (Qle_bool D (x - (inject_Z j + 1) * T)) eqn:E1; [apply Qle_bool_iff in E1; lra|].
          assert (Z0 : (inject_Z j * T + D - x == 0)%Q) by lra. rewrite Z0.
          destruct (Qle_bool (D - C / s) (x - (inject_Z j + 1) * T)) eqn:E2.
          * apply Qle_bool_iff in E2. assert (X : ((D - (x - (inject_Z j + 1) * T)) * s <= C / s * s)%Q) by (apply Qmult_le_compat_r; lra).
            setoid_replace (C / s * s)%Q with C in X by (field; lra). 
            assert (Z1 : (D - (x - (inject_Z j + 1) * T) == D)%Q) by lra. rewrite Z1 in *. lra.
          * lra.
    Qed.

    Lemma ff_nonneg : forall x, (0 <= x)%Q -> (0 <= ffdbf t x s)%Q.
    Proof.
      intros x Hx. destruct CDT as [C0 [D1 DT]]. unfold ffdbf. cbv zeta. fold C D T.
      assert (Q0 : 0 <= Qfloor (x / T)).
      { change 0 with (Qfloor 0). apply Qfloor_resp_le. apply div_ge; lra. }
      assert (X : (0 <= inject_Z (Qfloor (x / T) * t_cost t))%Q) by (change 0%Q with (inject_Z 0); rewrite <- Zle_Qle; nia).
      destruct (Qle_bool D (x - inject_Z (Qfloor (x / T)) * T)) eqn:E1; [lra|].
      destruct (Qle_bool (D - C / s) (x - inject_Z (Qfloor (x / T)) * T)) eqn:E2; [|assumption].
      apply Qle_bool_iff in E2. set (r := (x - inject_Z (Qfloor (x / T)) * T)%Q) in *.
      assert (Y : ((D - r) * s <= C / s * s)%Q) by (apply Qmult_le_compat_r; lra).
      setoid_replace (C / s * s)%Q with C in Y by (field; lra). lra.
    Qed.

    (** work that fits *)
    Lemma ff_work : forall (W N phi L : Z), 0 <= N -> 0 <= phi -> 0 <= L -> W <= N * t_cost t ->
      (N = 0 \/ (N - 1) * t_period t + t_deadline t <= L + phi /\ phi < t_deadline t /\ (s * inject_Z phi <= inject_Z (N * t_cost t) - inject_Z W)%Q) ->
      (inject_Z W <= ffdbf t (inject_Z L) s)%Q.
    Proof.
      intros W N phi L HN Hphi HL HW [->|[H1 [H2 H3]]].
      - assert (W0 : W <= 0) by lia. rewrite Zle_Qle in W0. change (inject_Z 0) with 0%Q in W0.
        pose proof (ff_nonneg (inject_Z L) ltac:(change 0%Q with (inject_Z 0); rewrite <- Zle_Qle; assumption)). lra.
      - destruct CDT as [C0 [D1 DT]].
        set (j := Z.max 0 ((L - t_deadline t + (t_period t - 1)) / t_period t)).
        assert (J1 : j * t_period t + t_deadline t - t_period t <= L).
        { unfold j. destruct (Z.max_spec 0 ((L - t_deadline t + (t_period t - 1)) / t_period t)) as [[_ ->]|[_ ->]]; [|lia].
          pose proof (Z.mul_div_le (L - t_deadline t + (t_period t - 1)) (t_period t) ltac:(lia)). lia. }
        assert (J2 : L <= j * t_period t + t_deadline t).
        { pose proof (Z.mul_succ_div_gt (L - t_deadline t + (t_period t - 1)) (t_period t) ltac:(lia)).
          unfold j. nia. }
        assert (J0 : 0 <= j) by (unfold j; lia).
        rewrite (ff_form j (inject_Z L) J0).
        + fold C in H3. pose proof (pos_part_ge (C - (inject_Z j * T + D - inject_Z L) * s)) as [P1 P2].
          rewrite inject_Z_mult in H3. fold C in H3.
          assert (Hp0 : (0 <= inject_Z phi)%Q) by (change 0%Q with (inject_Z 0); rewrite <- Zle_Qle; assumption).
          assert (S0 : (0 <= s * inject_Z phi)%Q) by (apply Qmult_le_0_compat; lra).
          destruct (Z.le_gt_cases N j) as [Le|Gt].
          * assert (X : (inject_Z N * C <= inject_Z j * C)%Q) by (apply Qmult_le_compat_r; [rewrite <- Zle_Qle; assumption|assumption]). lra.
          * assert (EN : N = j + 1) by nia. subst N. rewrite inject_Z_plus in H3. change (inject_Z 1) with 1%Q in H3.
            assert (X : j * t_period t + t_deadline t - L <= phi) by lia.
            rewrite Zle_Qle, inject_sub, inject_Z_plus, inject_Z_mult in X. fold T D in X.
            assert (Y : ((inject_Z j * T + D - inject_Z L) * s <= inject_Z phi * s)%Q) by (apply Qmult_le_compat_r; lra). lra.
        + change 0%Q with (inject_Z 0). rewrite <- Zle_Qle. assumption.
        + unfold T, D. rewrite <- inject_Z_mult, <- inject_Z_plus, <- inject_sub, <- Zle_Qle. assumption.
        + unfold T, D. rewrite <- inject_Z_mult, <- inject_Z_plus, <- Zle_Qle. assumption.
    Qed.

    Lemma ff_linear : forall x, (0 <= x)%Q -> (ffdbf t x s <= utilization t * x + C)%Q.
    Proof.
      intros x Hx. destruct CDT as [C0 [D1 DT]].
      assert (Eu : (utilization t * T == C)%Q) by (unfold utilization, T, C; apply zdivq_scale; lia).
      assert (Nu : (0 <= utilization t)%Q) by (unfold utilization; apply zdivq_nonneg; lia).
      assert (X : (inject_Z (Qfloor (x / T) * t_cost t) <= utilization t * x)%Q).
      { rewrite inject_Z_mult. fold C. rewrite <- Eu. pose proof (Qfloor_le (x / T)) as F.
        assert (F2 : (inject_Z (Qfloor (x / T)) * T <= x / T * T)%Q) by (apply Qmult_le_compat_r; lra).
        setoid_replace (x / T * T)%Q with x in F2 by (field; lra).
        setoid_replace (inject_Z (Qfloor (x / T)) * (utilization t * T))%Q with (inject_Z (Qfloor (x / T)) * T * utilization t)%Q by ring.
        rewrite (Qmult_comm (utilization t) x). apply Qmult_le_compat_r; assumption. }
      unfold ffdbf. cbv zeta. fold C D T.
      destruct (Qle_bool D (x - inject_Z (Qfloor (x / T)) * T)) eqn:E1; [lra|].
      destruct (Qle_bool (D - C / s) (x - inject_Z (Qfloor (x / T)) * T)) eqn:E2; [|lra].
      apply qle_false in E1. set (r := (x - inject_Z (Qfloor (x / T)) * T)%Q) in *.
      assert (Y : (0 <= (D - r) * s)%Q) by (apply Qmult_le_0_compat; lra). lra.
    Qed.

    Lemma ff_zero : forall x, (x == 0)%Q -> (ffdbf t x s == 0)%Q.
    Proof.
      intros x Hx. destruct CDT as [C0 [D1 DT]]. rewrite (ff_form 0 x); [|lia|lra|change (inject_Z 0) with 0%Q; lra|change (inject_Z 0) with 0%Q; lra].
      rewrite pos_part_neg; [change (inject_Z 0) with 0%Q; ring|]. change (inject_Z 0) with 0%Q. rewrite Hx. lra.
    Qed.
  End Speed.

  (** along a line from (a, sa) to (b, sb) without a deadline in between *)
  Lemma ff_convex : forall j a b sa sb l x sx, 0 <= j -> (0 <= a)%Q -> (a <= b)%Q -> (0 < sa)%Q -> (C <= sa * D)%Q -> (sa <= sb)%Q ->
    (inject_Z j * T + D - T <= a)%Q -> (b <= inject_Z j * T + D)%Q -> (0 <= l)%Q -> (l <= 1)%Q ->
    (x == a + l * (b - a))%Q -> (sx == sa + l * (sb - sa))%Q ->
    (ffdbf t x sx <= (1 - l) * ffdbf t a sa + l * ffdbf t b sb)%Q.
  Proof.
    intros j a b sa sb l x sx Hj Ha Hab Hsa Hd Hss Lo Hi Hl0 Hl1 Ex Es. destruct CDT as [C0 [D1 DT]].
    assert (P1 : (0 <= l * (b - a))%Q) by (apply Qmult_le_0_compat; lra).
    assert (P2 : (0 <= (1 - l) * (b - a))%Q) by (apply Qmult_le_0_compat; lra).
    assert (P3 : (0 <= l * (sb - sa))%Q) by (apply Qmult_le_0_compat; lra).
    assert (Hsx : (sa <= sx)%Q) by lra.
    assert (Q1 : (sa * D <= sx * D)%Q) by (apply Qmult_le_compat_r; lra).
    assert (Q2 : (sa * D <= sb * D)%Q) by (apply Qmult_le_compat_r; lra).
    rewrite (ff_form sx ltac:(lra) ltac:(lra) j x Hj ltac:(lra) ltac:(lra) ltac:(lra)).
    rewrite (ff_form sa Hsa Hd j a Hj Ha ltac:(lra) ltac:(lra)).
    rewrite (ff_form sb ltac:(lra) ltac:(lra) j b Hj ltac:(lra) ltac:(lra) ltac:(lra)).
    set (d := (inject_Z j * T + D)%Q) in *.
    destruct (pos_part_ge (C - (d - a) * sa)) as [A1 A2]. destruct (pos_part_ge (C - (d - b) * sb)) as [B1 B2].
    set (pa := pos_part (C - (d - a) * sa)) in *. set (pb := pos_part (C - (d - b) * sb)) in *.
    assert (R : (pos_part (C - (d - x) * sx) <= (1 - l) * pa + l * pb)%Q).
    { apply pos_part_lub.
      - assert (0 <= (1 - l) * pa)%Q by (apply Qmult_le_0_compat; lra). assert (0 <= l * pb)%Q by (apply Qmult_le_0_compat; lra). lra.
      - assert (M1 : ((1 - l) * (C - (d - a) * sa) <= (1 - l) * pa)%Q) by (rewrite !(Qmult_comm (1 - l)); apply Qmult_le_compat_r; lra).
        assert (M2 : (l * (C - (d - b) * sb) <= l * pb)%Q) by (rewrite !(Qmult_comm l); apply Qmult_le_compat_r; lra).
        assert (M3 : (0 <= (1 - l) * (b - a) * (l * (sb - sa)))%Q) by (apply Qmult_le_0_compat; assumption).
        eapply Qle_trans; [|apply Qplus_le_compat; [exact M1|exact M2]]. rewrite Ex, Es.
        setoid_replace (C - (d - (a + l * (b - a))) * (sa + l * (sb - sa)))%Q with
          ((1 - l) * (C - (d - a) * sa) + l * (C - (d - b) * sb) - (1 - l) * (b - a) * (l * (sb - sa)))%Q by ring.
        lra. }
    setoid_replace ((1 - l) * (inject_Z j * C + pa) + l * (inject_Z j * C + pb))%Q with (inject_Z j * C + ((1 - l) * pa + l * pb))%Q by ring.
    lra.
  Qed.
End Task.
