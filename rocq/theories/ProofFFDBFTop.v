(** Soundness of ffdbf.is_schedulable, including the changes of sigma. *)
From Coq Require Import ZArith QArith Qround List Bool Lia Lqa Sorted.
From Verif Require Import Base ModelTasks SpecTasks ProofTasks SpecUni SpecQPA SpecGlobal ProofUni ProofEDF ProofGlobal ProofGFB ModelGEDF ProofGEDF
  ProofBusy ProofBAK ProofBARTop ModelFFDBF ProofFFDBF ProofFFDBFSched.
Import ListNotations.
Open Scope Z_scope.

Notation qsorted := (StronglySorted Qle).

Lemma qmerge2_in : forall a b x, In x (qmerge2 a b) <-> In x a \/ In x b.
Proof.
  induction a as [|y a IHa].
  - intros b x. destruct b; cbn; tauto.
  - induction b as [|z b IHb]; intros x; [cbn; tauto|]. cbn [qmerge2]. destruct (Qle_bool y z).
    + cbn [In]. rewrite IHa. cbn [In]. tauto.
    + change ((fix aux (b0 : list Q) : list Q := match b0 with [] => y :: a | y0 :: b' => if Qle_bool y y0 then y :: qmerge2 a b0 else y0 :: aux b' end) b) with (qmerge2 (y :: a) b).
      cbn [In]. rewrite IHb. cbn [In]. tauto.
Qed.

Lemma qmerge2_sorted : forall a b, qsorted a -> qsorted b -> qsorted (qmerge2 a b).
Proof.
  induction a as [|y a IHa].
  - intros b _ Hb. destruct b; assumption.
  - induction b as [|z b IHb]; intros Ha Hb; [assumption|]. cbn [qmerge2]. destruct (Qle_bool y z) eqn:E.
    + apply Qle_bool_iff in E. inversion Ha; subst. inversion Hb; subst. constructor; [apply IHa; assumption|].
      apply Forall_forall. intros x Hx. apply qmerge2_in in Hx. rewrite Forall_forall in *.
      destruct Hx as [Hx|[<-|Hx]]; [apply H2; assumption|assumption|]. eapply Qle_trans; [exact E|]. apply H4. assumption.
    + apply qle_false in E.
      change ((fix aux (b0 : list Q) : list Q := match b0 with [] => y :: a | y0 :: b' => if Qle_bool y y0 then y :: qmerge2 a b0 else y0 :: aux b' end) b) with (qmerge2 (y :: a) b).
      inversion Hb; subst. constructor; [apply IHb; assumption|].
      apply Forall_forall. intros x Hx. apply qmerge2_in in Hx. inversion Ha; subst. rewrite Forall_forall in *.
      destruct Hx as [[<-|Hx]|Hx]; [lra| |apply H2; assumption]. specialize (H4 x Hx). lra.
Qed.

Lemma qmerge_in : forall ls x, In x (fold_right qmerge2 [] ls) <-> exists l, In l ls /\ In x l.
Proof.
  induction ls as [|l ls IH]; intros x; cbn [fold_right]; [cbn; firstorder|]. rewrite qmerge2_in, IH. cbn [In]. split.
  - intros [H|[l0 [A B]]]; [exists l; tauto|exists l0; tauto].
  - intros [l0 [[<-|A] B]]; [left; assumption|right; exists l0; tauto].
Qed.

Lemma qmerge_sorted : forall ls, Forall qsorted ls -> qsorted (fold_right qmerge2 [] ls).
Proof. induction 1; cbn [fold_right]; [constructor|]. apply qmerge2_sorted; assumption. Qed.

Lemma quniq_from_incl : forall l last x, In x (quniq_from last l) -> In x l.
Proof. induction l as [|y l IH]; intros last x; cbn; [tauto|]. destruct (Qeq_bool y last); cbn; intros H; [right; eapply IH; eassumption|destruct H; [left; assumption|right; eapply IH; eassumption]]. Qed.

Lemma quniq_incl : forall l x, In x (quniq l) -> In x l.
Proof. intros [|y l] x; cbn; [tauto|]. intros [H|H]; [left; assumption|right; eapply quniq_from_incl; eassumption]. Qed.

Lemma quniq_from_sorted : forall l last, qsorted l -> qsorted (quniq_from last l).
Proof.
  induction l as [|y l IH]; intros last H; cbn; [constructor|]. inversion H; subst. destruct (Qeq_bool y last); [apply IH; assumption|].
  constructor; [apply IH; assumption|]. rewrite Forall_forall in *. intros x Hx. apply H3. eapply quniq_from_incl; eassumption.
Qed.

Lemma quniq_sorted : forall l, qsorted l -> qsorted (quniq l).
Proof.
  intros [|y l] H; cbn; [constructor|]. inversion H; subst. constructor; [apply quniq_from_sorted; assumption|].
  rewrite Forall_forall in *. intros x Hx. apply H3. eapply quniq_from_incl; eassumption.
Qed.

Lemma quniq_from_complete : forall l last x, In x l -> (x == last)%Q \/ exists y, In y (quniq_from last l) /\ (y == x)%Q.
Proof.
  induction l as [|y l IH]; intros last x; cbn; [tauto|]. intros [->|H].
  - destruct (Qeq_bool x last) eqn:E; [left; apply Qeq_bool_iff; assumption|]. right. exists x. split; [left; reflexivity|reflexivity].
  - destruct (Qeq_bool y last) eqn:E; [apply IH; assumption|]. right. destruct (IH y x H) as [X|[z [Z1 Z2]]].
    + exists y. split; [left; reflexivity|symmetry; assumption].
    + exists z. split; [right; assumption|assumption].
Qed.

Lemma quniq_complete : forall l x, In x l -> exists y, In y (quniq l) /\ (y == x)%Q.
Proof.
  intros [|y l] x; cbn; [tauto|]. intros [->|H]; [exists x; split; [left; reflexivity|reflexivity]|].
  destruct (quniq_from_complete l y x H) as [X|[z [Z1 Z2]]]; [exists y; split; [left; reflexivity|symmetry; assumption]|exists z; split; [right; assumption|assumption]].
Qed.

(** ** The testing set *)
Lemma min_q_spec : forall a b, (min_q a b <= a)%Q /\ (min_q a b <= b)%Q /\ (min_q a b = a \/ min_q a b = b).
Proof.
  intros a b. unfold min_q. destruct (Qle_bool a b) eqn:E; cbn [negb].
  - apply Qle_bool_iff in E. split; [lra|]. split; [assumption|left; reflexivity].
  - apply qle_false in E. split; [lra|]. split; [lra|right; reflexivity].
Qed.

Lemma points_beyond_spec : forall fuel time period offset bound l, 0 < period -> (0 <= offset)%Q -> (offset <= inject_Z period)%Q ->
  points_beyond fuel time period offset bound = Some l ->
  qsorted l /\ Forall (fun x => (inject_Z time - offset <= x)%Q /\ (x <= bound)%Q) l /\
  forall j, 0 <= j -> (inject_Z (time + j * period) <= bound)%Q -> In (inject_Z (time + j * period)) l.
Proof.
  induction fuel as [|f IH]; intros time period offset bound l Hp Ho Hop H; [discriminate|]. cbn [points_beyond] in H.
  destruct (Qle_bool (inject_Z time - offset) bound) eqn:E.
  - destruct (points_beyond f (time + period) period offset bound) as [r|] eqn:Er; [|discriminate]. cbn [option_map] in H. injection H as <-.
    apply Qle_bool_iff in E. destruct (IH _ _ _ _ _ Hp Ho Hop Er) as [S [F In0]]. rewrite inject_Z_plus in F.
    assert (F' : Forall (fun x => (inject_Z time <= x)%Q /\ (x <= bound)%Q) r) by (eapply Forall_impl; [|exact F]; cbn; intros x X; lra).
    assert (F'' : Forall (fun x => (inject_Z time - offset <= x)%Q /\ (x <= bound)%Q) r) by (eapply Forall_impl; [|exact F']; cbn; intros x X; lra).
    cbn [app]. split; [|split].
    + destruct (Qle_bool (inject_Z time) bound) eqn:E2; cbn [app].
      * constructor; [constructor; [assumption|eapply Forall_impl; [|exact F']; cbn; tauto]|].
        constructor; [lra|]. eapply Forall_impl; [|exact F'']; cbn; tauto.
      * constructor; [assumption|]. eapply Forall_impl; [|exact F'']; cbn; tauto.
    + destruct (Qle_bool (inject_Z time) bound) eqn:E2; cbn [app].
      * apply Qle_bool_iff in E2. constructor; [lra|]. constructor; [lra|assumption].
      * constructor; [lra|assumption].
    + intros j Hj Hb. destruct (Z.eq_dec j 0) as [->|Nz].
      * replace (time + 0 * period) with time in * by lia. rewrite (proj2 (Qle_bool_iff _ _) Hb). right. left. reflexivity.
      * replace (time + j * period) with (time + period + (j - 1) * period) in * by lia.
        right. apply in_or_app. right. apply In0; [lia|assumption].
  - injection H as <-. apply qle_false in E. split; [constructor|]. split; [constructor|]. intros j Hj Hb. exfalso.
    assert (X : time <= time + j * period) by nia. rewrite Zle_Qle in X. lra.
Qed.

Lemma test_points_spec : forall fuel t s a bound l, ok_task t -> (0 < s)%Q -> (0 <= a)%Q -> test_points fuel t s a bound = Some l ->
  qsorted l /\ Forall (fun x => (a < x)%Q /\ (x <= bound)%Q) l /\
  forall j, 0 <= j -> (a < inject_Z (j * t_period t + t_deadline t))%Q -> (inject_Z (j * t_period t + t_deadline t) <= bound)%Q ->
    In (inject_Z (j * t_period t + t_deadline t)) l.
Proof.
  intros fuel t s a bound l [HC HD] Hs Ha H. unfold test_points in H.
  set (T := t_period t) in *. set (D := t_deadline t) in *. set (skip := Qfloor (a / inject_Z T)) in *.
  set (offset := min_q (inject_Z (t_cost t) / s) (inject_Z D)) in *. set (time := skip * T + D) in *.
  assert (T0 : (1 <= inject_Z T)%Q) by (change 1%Q with (inject_Z 1); rewrite <- Zle_Qle; lia).
  assert (D0 : (1 <= inject_Z D)%Q) by (change 1%Q with (inject_Z 1); rewrite <- Zle_Qle; lia).
  assert (DT : (inject_Z D <= inject_Z T)%Q) by (rewrite <- Zle_Qle; lia).
  assert (O1 : (0 <= offset)%Q).
  { unfold offset. destruct (min_q_spec (inject_Z (t_cost t) / s) (inject_Z D)) as [_ [_ [->| ->]]]; [|lra].
    apply Qle_shift_div_l; [assumption|]. rewrite Qmult_0_l. change 0%Q with (inject_Z 0). rewrite <- Zle_Qle. assumption. }
  assert (O2 : (offset <= inject_Z D)%Q) by (apply min_q_spec).
  assert (S1 : (inject_Z skip * inject_Z T <= a)%Q).
  { pose proof (Qfloor_le (a / inject_Z T)) as X. fold skip in X.
    assert (Y : (inject_Z skip * inject_Z T <= a / inject_Z T * inject_Z T)%Q) by (apply Qmult_le_compat_r; lra).
    setoid_replace (a / inject_Z T * inject_Z T)%Q with a in Y by (field; lra). assumption. }
  assert (S2 : (a < inject_Z skip * inject_Z T + inject_Z T)%Q).
  { pose proof (Qlt_floor (a / inject_Z T)) as X. fold skip in X. rewrite inject_Z_plus in X. change (inject_Z 1) with 1%Q in X.
    assert (Y : (a / inject_Z T * inject_Z T < (inject_Z skip + 1) * inject_Z T)%Q) by (apply Qmult_lt_compat_r; lra).
    setoid_replace (a / inject_Z T * inject_Z T)%Q with a in Y by (field; lra). lra. }
  destruct (points_beyond fuel (time + T) T offset bound) as [r|] eqn:Er; [|discriminate].
  assert (El : l = filter (fun x => negb (Qle_bool x a) && Qle_bool x bound) [(inject_Z time - offset)%Q; inject_Z time] ++ r) by (injection H as <-; reflexivity).
  clear H. rewrite El. clear El.
  assert (T1 : 0 < T) by lia. assert (OT : (offset <= inject_Z T)%Q) by lra.
  destruct (points_beyond_spec _ _ _ _ _ _ T1 O1 OT Er) as [R1 [R2 R3]].
  assert (Etime : (inject_Z time == inject_Z skip * inject_Z T + inject_Z D)%Q) by (unfold time; rewrite inject_Z_plus, inject_Z_mult; reflexivity).
  rewrite inject_Z_plus in R2.
  assert (R4 : Forall (fun x => (inject_Z time <= x)%Q /\ (a < x)%Q /\ (x <= bound)%Q) r).
  { eapply Forall_impl; [|exact R2]. cbn. intros x X. lra. }
  set (keep := fun x => negb (Qle_bool x a) && Qle_bool x bound).
  assert (K : forall x, keep x = true -> (a < x)%Q /\ (x <= bound)%Q).
  { intros x Hx. unfold keep in Hx. apply andb_true_iff in Hx. destruct Hx as [A B]. apply negb_true_iff, qle_false in A. apply Qle_bool_iff in B. tauto. }
  change (filter (fun x => negb (Qle_bool x a) && Qle_bool x bound)) with (filter keep).
  split; [|split].
  - cbn [filter]. destruct (keep (inject_Z time - offset)%Q); destruct (keep (inject_Z time)); cbn [app].
    + constructor; [constructor; [assumption|]|constructor; [lra|]]; (eapply Forall_impl; [|exact R4]; cbn; intros; lra).
    + constructor; [assumption|]; (eapply Forall_impl; [|exact R4]; cbn; intros; lra).
    + constructor; [assumption|]; (eapply Forall_impl; [|exact R4]; cbn; intros; lra).
    + assumption.
  - apply Forall_app. split; [|eapply Forall_impl; [|exact R4]; cbn; tauto].
    apply Forall_forall. intros x Hx. apply filter_In in Hx. apply K. tauto.
  - intros j Hj Lo Hi. apply in_or_app.
    assert (Hjs : skip <= j).
    { destruct (Z.le_gt_cases skip j) as [|Gt]; [assumption|exfalso]. assert (X : j * T + D <= skip * T) by nia.
      rewrite Zle_Qle, inject_Z_mult in X. lra. }
    destruct (Z.eq_dec j skip) as [->|Ne].
    + left. fold time. apply filter_In. split; [right; left; reflexivity|]. fold time in Lo, Hi.
      unfold keep. rewrite (proj2 (Qle_bool_iff _ _) Hi), andb_true_r. apply negb_true_iff.
      destruct (Qle_bool (inject_Z time) a) eqn:E; [apply Qle_bool_iff in E; lra|reflexivity].
    + right. replace (j * T + D) with (time + T + (j - skip - 1) * T) in * by (unfold time; lia). apply R3; [lia|assumption].
Qed.

Lemma testing_set_spec : forall fuel ts s a bound l, Forall ok_task ts -> (0 < s)%Q -> (0 <= a)%Q -> testing_set fuel ts s a bound = Some l ->
  qsorted l /\ Forall (fun x => (a < x)%Q /\ (x <= bound)%Q) l /\
  forall y, dline ts y -> (a < y)%Q -> (y <= bound)%Q -> exists x, In x l /\ (x == y)%Q.
Proof.
  intros fuel ts s a bound l Ho Hs Ha H. unfold testing_set in H.
  destruct (sequence (map (fun t => test_points fuel t s a bound) ts)) as [ls|] eqn:E; [|discriminate]. cbn in H. injection H as <-.
  apply sequence_Forall2 in E.
  assert (S : Forall qsorted ls).
  { clear - E Ho Hs Ha. induction E as [|x y l l' H _ IH]; constructor; inversion Ho; subst; [|auto].
    apply (test_points_spec _ _ _ _ _ _ H2 Hs Ha H). }
  assert (B : forall x l0, In l0 ls -> In x l0 -> (a < x)%Q /\ (x <= bound)%Q).
  { clear - E Ho Hs Ha. induction E as [|x y l l' H _ IH]; intros z l0 H1 H2; [destruct H1|]. inversion Ho; subst.
    destruct H1 as [<-|H1]; [|eapply IH; eassumption]. destruct (test_points_spec _ _ _ _ _ _ H4 Hs Ha H) as [_ [F _]]. rewrite Forall_forall in F. auto. }
  split; [apply quniq_sorted, qmerge_sorted; assumption|]. split.
  - apply Forall_forall. intros x Hx. apply quniq_incl, qmerge_in in Hx. destruct Hx as [l0 [A1 A2]]. eapply B; eassumption.
  - intros y [t [j [Ht [Hj Ey]]]] Lo Hi. rewrite Ey in Lo, Hi.
    assert (X : In (inject_Z (j * t_period t + t_deadline t)) (fold_right qmerge2 [] ls)).
    { apply qmerge_in. clear S B. induction E as [|x z l l' H _ IH]; [destruct Ht|]. inversion Ho; subst. destruct Ht as [->|Ht].
      - exists z. split; [left; reflexivity|]. apply (test_points_spec _ _ _ _ _ _ H2 Hs Ha H); assumption.
      - destruct (IH H3 Ht) as [l0 [A1 A2]]. exists l0. split; [right; assumption|assumption]. }
    destruct (quniq_complete _ _ X) as [x [X1 X2]]. exists x. split; [assumption|]. rewrite X2, Ey. reflexivity.
Qed.

Lemma ok_of : forall ts, Forall wf_task ts -> Forall constrained ts -> Forall ok_task ts.
Proof.
  intros ts Hw Hc. rewrite Forall_forall in *. intros t Ht. destruct (Hw t Ht) as [A [B _]]. specialize (Hc t Ht). unfold constrained in Hc. split; [assumption|lia].
Qed.

(** ** The values of sigma *)
Lemma sigma_mono : forall maxd step n n', (0 < step)%Q -> (n <= n')%nat -> (sigma_at maxd step n <= sigma_at maxd step n')%Q.
Proof.
  intros maxd step n n' Hs Hn.
  assert (X : forall a b : nat, (a <= b)%nat -> (inject_Z (Z.of_nat a) * step <= inject_Z (Z.of_nat b) * step)%Q).
  { intros a b H. apply Qmult_le_compat_r; [rewrite <- Zle_Qle; lia|lra]. }
  destruct n as [|n]; destruct n' as [|n']; cbn [sigma_at]; [lra| |lia|specialize (X (S n) (S n') Hn); lra].
  specialize (X 1%nat (S n') ltac:(lia)). change (inject_Z (Z.of_nat 1)) with 1%Q in X.
  pose proof (Qlt_floor (maxd / step)) as F. rewrite inject_Z_plus in F. change (inject_Z 1) with 1%Q in F.
  assert (Y : (maxd / step * step < (inject_Z (Qfloor (maxd / step)) + 1) * step)%Q) by (apply Qmult_lt_compat_r; lra).
  setoid_replace (maxd / step * step)%Q with maxd in Y by (field; lra). lra.
Qed.

Lemma next_sigma_spec : forall fuel cpus ts maxd step bound t n n', next_sigma fuel cpus ts maxd step bound t n = Some (Some n') ->
  (n < n')%nat /\ (maxd <= sigma_at maxd step n')%Q /\ (sigma_at maxd step n' <= bound)%Q /\ witness_condition cpus ts t (sigma_at maxd step n') = true.
Proof.
  induction fuel as [|f IH]; intros cpus ts maxd step bound t n n' H; [discriminate|]. cbn [next_sigma] in H.
  destruct (Qle_bool maxd (sigma_at maxd step (S n)) && Qle_bool (sigma_at maxd step (S n)) bound) eqn:E; [|discriminate].
  destruct (witness_condition cpus ts t (sigma_at maxd step (S n))) eqn:W.
  - injection H as <-. apply andb_true_iff in E. destruct E as [A B]. apply Qle_bool_iff in A, B. split; [lia|tauto].
  - destruct (IH _ _ _ _ _ _ _ _ H) as [A B]. split; [lia|exact B].
Qed.

(** ** The test *)
Section Accept.
  Variables (m : nat) (ts : taskset) (s : jobseq) (sc : gschedule).
  Let es := map e_of ts.
  Hypothesis Hm2 : (2 <= m)%nat.
  Hypothesis Hw : Forall wf_task ts.
  Hypothesis Hc : Forall constrained ts.
  Hypothesis Hl : legal_edf es s.
  Hypothesis Hv : gvalid (length es) m s sc.
  Hypothesis Hp : gedf es m s sc.
  Variable d : nat.
  Hypothesis IHd : forall i h d', (i < length es)%nat -> (d' < d)%nat -> Z.of_nat d' = due es s (i, h) -> gcompleted s sc (i, h) d'.
  Variables k q : nat.
  Hypothesis Hk : (k < length es)%nat.
  Hypothesis Hdue : due es s (k, q) = Z.of_nat d.
  Hypothesis Hmiss : gservice sc (k, q) d < Z.of_nat (cst s k q).

  Variables (eps maxd step : Q).
  Hypothesis Heps : (0 < eps)%Q.
  Hypothesis Hstep : (0 < step)%Q.
  Hypothesis Hmaxd : forall t, In t ts -> (inject_Z (t_cost t) <= maxd * inject_Z (t_deadline t))%Q.
  Let sbound := min_q 1 ((inject_Z (Z.of_nat m) - ts_utilization ts None) / inject_Z (Z.of_nat m - 1) - eps).
  Let tbound := (inject_Z (zsum (map t_cost ts)) / eps)%Q.

  Let rch := reach m ts s sc d.
  Let seg := reach_seg m ts s sc Hm2 Hw Hc Hl Hv Hp d IHd k q Hk Hdue.

  Lemma wit_good : forall x sg, witness_condition (Z.of_nat m) ts x sg = true <-> good m ts x sg.
  Proof. intros. unfold witness_condition, good. apply Qle_bool_iff. Qed.

  Lemma sg_fast : forall sg, (0 < sg)%Q -> (maxd <= sg)%Q -> fast ts sg.
  Proof.
    intros sg H0 H. split; [assumption|]. apply Forall_forall. intros t Ht. pose proof (Hmaxd t Ht) as X.
    pose proof (ok_of ts Hw Hc) as O. rewrite Forall_forall in O. destruct (O t Ht) as [_ [D1 _]]. rewrite Zle_Qle in D1. change (inject_Z 1) with 1%Q in D1.
    assert ((maxd * inject_Z (t_deadline t) <= sg * inject_Z (t_deadline t))%Q) by (apply Qmult_le_compat_r; lra). lra.
  Qed.

  (** scanning the points with one sigma *)
  Lemma scan_none : forall sg l a, (0 <= a)%Q -> (a <= tbound)%Q -> fast ts sg -> (sg <= 1)%Q ->
    qsorted l -> Forall (fun x => (a <= x)%Q /\ (x <= tbound)%Q) l ->
    (forall y, dline ts y -> (a < y)%Q -> (y <= tbound)%Q -> exists x, In x l /\ (x == y)%Q) ->
    good m ts a sg -> rch a sg -> first_failure (Z.of_nat m) ts sg l = None ->
    exists z, (0 <= z)%Q /\ (z <= tbound)%Q /\ good m ts z sg /\ rch z sg /\ forall y, dline ts y -> (z < y)%Q -> ~ (y <= tbound)%Q.
  Proof.
    intros sg. induction l as [|x l IH]; intros a A0 A1 F S1 So Fo Cov G R H.
    - exists a. split; [assumption|]. split; [assumption|]. split; [assumption|]. split; [assumption|].
      intros y Y1 Y2 Y3. destruct (Cov y Y1 Y2 Y3) as [x [[] _]].
    - unfold first_failure in H. cbn [find] in H. destruct (witness_condition (Z.of_nat m) ts x sg) eqn:W; cbn [negb] in H; [|discriminate].
      inversion So; subst. inversion Fo; subst. destruct H4 as [X1 X2]. rewrite wit_good in W. rewrite Forall_forall in H3.
      apply (IH x); try assumption; try lra.
      + apply Forall_forall. intros y Hy. split; [apply H3; assumption|]. rewrite Forall_forall in H5. apply H5. assumption.
      + intros y Y1 Y2 Y3. destruct (Cov y Y1 ltac:(lra) Y3) as [z [[<-|Z1] Z2]]; [lra|exists z; tauto].
      + apply (seg a x sg sg A0 X1 F ltac:(lra) S1); try assumption.
        intros y Y1 [Y2 Y3]. destruct (Cov y Y1 Y2 ltac:(lra)) as [z [[<-|Z1] Z2]]; [lra|]. specialize (H3 z Z1). lra.
  Qed.

  Lemma scan_some : forall sg l a t, (0 <= a)%Q -> fast ts sg -> (sg <= 1)%Q ->
    qsorted l -> Forall (fun x => (a <= x)%Q /\ (x <= tbound)%Q) l ->
    (forall y, dline ts y -> (a < y)%Q -> (y <= tbound)%Q -> exists x, In x l /\ (x == y)%Q) ->
    good m ts a sg -> rch a sg -> first_failure (Z.of_nat m) ts sg l = Some t ->
    (t <= tbound)%Q /\ exists z, (0 <= z)%Q /\ (z <= t)%Q /\ good m ts z sg /\ rch z sg /\ forall y, dline ts y -> ~ ((z < y)%Q /\ (y < t)%Q).
  Proof.
    intros sg. induction l as [|x l IH]; intros a t A0 F S1 So Fo Cov G R H; [discriminate|].
    unfold first_failure in H. cbn [find] in H. inversion So; subst. inversion Fo; subst. destruct H4 as [X1 X2]. rewrite Forall_forall in H3.
    assert (Gap : forall y, dline ts y -> ~ ((a < y)%Q /\ (y < x)%Q)).
    { intros y Y1 [Y2 Y3]. destruct (Cov y Y1 Y2 ltac:(lra)) as [z [[<-|Z1] Z2]]; [lra|]. specialize (H3 z Z1). lra. }
    destruct (witness_condition (Z.of_nat m) ts x sg) eqn:W; cbn [negb] in H.
    - rewrite wit_good in W. apply (IH x); try assumption; try lra.
      + apply Forall_forall. intros y Hy. split; [apply H3; assumption|]. rewrite Forall_forall in H5. apply H5. assumption.
      + intros y Y1 Y2 Y3. destruct (Cov y Y1 ltac:(lra) Y3) as [z [[<-|Z1] Z2]]; [lra|exists z; tauto].
      + apply (seg a x sg sg A0 X1 F ltac:(lra) S1); assumption.
    - injection H as <-. split; [assumption|]. exists a. repeat (split; [assumption|]). exact Gap.
  Qed.

  Lemma loop_contra : forall fuel pfuel n a, (0 <= a)%Q -> (a <= tbound)%Q ->
    ((0 < sigma_at maxd step n)%Q -> (maxd <= sigma_at maxd step n)%Q -> (sigma_at maxd step n <= sbound)%Q ->
       good m ts a (sigma_at maxd step n) /\ rch a (sigma_at maxd step n)) ->
    ffdbf_loop fuel pfuel (Z.of_nat m) ts maxd step sbound tbound n a = Some true -> (0 <= maxd)%Q -> False.
  Proof.
    induction fuel as [|f IH]; intros pfuel n a A0 A1 Inv H Hm0; [discriminate|]. cbn [ffdbf_loop] in H.
    set (sg := sigma_at maxd step n) in *.
    destruct (Qle_bool maxd sg && Qle_bool sg sbound) eqn:E; cbn [negb] in H; [|discriminate].
    apply andb_true_iff in E. destruct E as [E1 E2]. apply Qle_bool_iff in E1, E2.
    destruct (Qeq_bool sg 0) eqn:E3; [discriminate|].
    assert (Sp : (0 < sg)%Q).
    { destruct (Qlt_le_dec 0 sg) as [|X]; [assumption|exfalso]. assert (X0 : (sg == 0)%Q) by lra. apply Qeq_bool_iff in X0. congruence. }
    destruct (Inv Sp E1 E2) as [G R]. clear Inv.
    assert (Fs : fast ts sg) by (apply sg_fast; assumption).
    destruct (min_q_spec 1 ((inject_Z (Z.of_nat m) - ts_utilization ts None) / inject_Z (Z.of_nat m - 1) - eps)) as [B1 [B2 _]]. fold sbound in B1, B2.
    destruct (testing_set pfuel ts sg a tbound) as [l|] eqn:Et; [|discriminate].
    destruct (testing_set_spec _ _ _ _ _ _ (ok_of ts Hw Hc) Sp A0 Et) as [T1 [T2 T3]].
    assert (T2' : Forall (fun x => (a <= x)%Q /\ (x <= tbound)%Q) l) by (eapply Forall_impl; [|exact T2]; cbn; intros; lra).
    destruct (first_failure (Z.of_nat m) ts sg l) as [t|] eqn:Ef.
    - destruct (next_sigma f (Z.of_nat m) ts maxd step sbound t n) as [[n'|]|] eqn:En; [|discriminate|discriminate].
      destruct (next_sigma_spec _ _ _ _ _ _ _ _ _ En) as [N1 [N2 [N3 N4]]]. apply wit_good in N4.
      destruct (scan_some sg l a t A0 Fs ltac:(lra) T1 T2' T3 G R Ef) as [Tt [z [Z1 [Z2 [Z3 [Z4 Z5]]]]]].
      apply (IH pfuel n' t) in H; try assumption; [lra|]. intros P1 P2 P3. split; [assumption|].
      apply (seg z t sg (sigma_at maxd step n') Z1 Z2 Fs); try assumption; [|lra].
      apply sigma_mono; [assumption|lia].
    - destruct (scan_none sg l a A0 A1 Fs ltac:(lra) T1 T2' T3 G R Ef) as [z [Z1 [Z2 [Z3 [Z4 Z5]]]]].
      assert (Late : forall y, (tbound <= y)%Q -> good m ts y sg).
      { intros y Hy. apply (good_late m ts eps); try assumption; [apply ok_of; assumption|lra]. }
      apply (reach_end m ts s sc Hm2 Hw Hc Hl Hv Hp d IHd k q Hk Hdue tbound sg); try assumption; [lra|lra|].
      apply (seg z tbound sg sg Z1 Z2 Fs); try assumption; try lra; [|apply Late; lra].
      intros y Y1 [Y2 Y3]. apply (Z5 y Y1 Y2). lra.
  Qed.
End Accept.

Lemma ffdbf_sound : forall fuel pfuel eps g (m : nat) ts, (0 < eps)%Q -> Forall wf_task ts -> Forall constrained ts ->
  ffdbf_test fuel pfuel eps g (Z.of_nat m) ts = Some true -> gedf_schedulable (map e_of ts) m.
Proof.
  intros fuel pfuel eps g m ts He Hw Hc H. apply no_first_miss; [assumption|]. intros s sc Hl Hv Hp d IH k q Hk Hdue Hmiss.
  destruct ts as [|t0 r]; [cbn in Hk; lia|]. set (ts := t0 :: r) in *. unfold ffdbf_test in H. fold ts in H.
  destruct (Z.ltb_spec (Z.of_nat m) 2) as [|Hm]; [discriminate|].
  assert (Hden : forall t, In t ts -> (density t <= max_density t0 r)%Q).
  { intros t Ht. apply max_list_ge. destruct Ht as [<-|Ht]; [left; reflexivity|right; apply in_map; assumption]. }
  assert (Hmax : forall t, In t ts -> (inject_Z (t_cost t) <= max_density t0 r * inject_Z (t_deadline t))%Q).
  { intros t Ht. specialize (Hden t Ht). pose proof (ok_of ts Hw Hc) as O. rewrite Forall_forall in O. destruct (O t Ht) as [C0 [D1 DT]].
    assert (E : (density t * inject_Z (t_deadline t) == inject_Z (t_cost t))%Q).
    { unfold density. rewrite Z.min_r by lia. apply zdivq_scale. lia. }
    rewrite <- E. apply Qmult_le_compat_r; [assumption|]. change 0%Q with (inject_Z 0). rewrite <- Zle_Qle. lia. }
  assert (M0 : (0 <= max_density t0 r)%Q).
  { specialize (Hden t0 (or_introl eq_refl)). eapply Qle_trans; [|exact Hden]. unfold density. apply zdivq_nonneg.
    - inversion Hw; subst. destruct H2. lia.
    - inversion Hw; subst. destruct H2 as [_ [X Y]]. lia. }
  assert (C0 : 0 <= zsum (map t_cost ts)).
  { clear - Hw. induction Hw as [|t l [X _] _ IH]; [cbn; lia|]. cbn [map]. change (zsum (t_cost t :: map t_cost l)) with (t_cost t + zsum (map t_cost l)). lia. }
  assert (B0 : (0 <= inject_Z (zsum (map t_cost ts)) / eps)%Q).
  { apply Qle_shift_div_l; [assumption|]. rewrite Qmult_0_l. change 0%Q with (inject_Z 0). rewrite <- Zle_Qle. assumption. }
  eapply (loop_contra m ts s sc ltac:(lia) Hw Hc Hl Hv Hp d IH k q Hk Hdue eps (max_density t0 r) (1 # g) He ltac:(reflexivity) Hmax fuel pfuel 0%nat 0); try assumption; [lra|].
  cbn [sigma_at]. intros P1 P2 P3. assert (F : fast ts (max_density t0 r)) by (eapply sg_fast; [exact Hw|exact Hc|exact Hmax|assumption|lra]).
  destruct (min_q_spec 1 ((inject_Z (Z.of_nat m) - ts_utilization ts None) / inject_Z (Z.of_nat m - 1) - eps)) as [B1 [B2 _]].
  split; [apply good_zero; [apply ok_of; assumption|assumption|reflexivity]|].
  unfold reach. change (Qfloor 0 + 1) with 1. eapply (window_start m ts s sc); try eassumption; [lia|]. eapply Qle_trans; [exact P3|exact B1].
Qed.

(** ** Termination *)
Lemma points_beyond_total : forall fuel time period offset bound, 0 < period -> (bound + offset < inject_Z time + inject_Z (Z.of_nat fuel))%Q ->
  exists l, points_beyond (S fuel) time period offset bound = Some l.
Proof.
  induction fuel as [|f IH]; intros time period offset bound Hp H; cbn [points_beyond].
  - destruct (Qle_bool (inject_Z time - offset) bound) eqn:E; [|eexists; reflexivity]. apply Qle_bool_iff in E.
    change (inject_Z (Z.of_nat 0)) with 0%Q in H. lra.
  - destruct (Qle_bool (inject_Z time - offset) bound) eqn:E; [|eexists; reflexivity].
    destruct (IH (time + period) period offset bound Hp) as [l El]; [|cbn [points_beyond] in El; rewrite El; eexists; reflexivity].
    rewrite inject_Z_plus. rewrite Nat2Z.inj_succ, <- Z.add_1_r, inject_Z_plus in H. change (inject_Z 1) with 1%Q in H.
    assert (X : 1 <= period) by lia. rewrite Zle_Qle in X. change (inject_Z 1) with 1%Q in X. lra.
Qed.

Lemma testing_set_total : forall ts bound, Forall ok_task ts -> exists N, forall fuel s a, (N <= fuel)%nat -> (0 <= a)%Q -> testing_set fuel ts s a bound <> None.
Proof.
  intros ts bound Ho. exists (S (S (Z.to_nat (Qceiling bound)))). intros fuel s a Hf Ha.
  unfold testing_set. enough (X : forall ts, Forall ok_task ts -> sequence (map (fun t => test_points fuel t s a bound) ts) <> None).
  { specialize (X ts Ho). destruct (sequence _); [discriminate|contradiction]. }
  clear ts Ho. intros ts Ho. induction Ho as [|t r H _ IH]; [discriminate|]. cbn [map sequence].
  destruct H as [HC HD]. unfold test_points at 1. set (time := Qfloor (a / inject_Z (t_period t)) * t_period t + t_deadline t).
  set (offset := min_q (inject_Z (t_cost t) / s) (inject_Z (t_deadline t))).
  destruct fuel as [|f]; [lia|].
  destruct (points_beyond_total f (time + t_period t) (t_period t) offset bound ltac:(lia)) as [l ->].
  - assert (O2 : (offset <= inject_Z (t_deadline t))%Q) by apply min_q_spec.
    assert (Q0 : 0 <= Qfloor (a / inject_Z (t_period t))).
    { change 0 with (Qfloor 0). apply Qfloor_resp_le. apply Qle_shift_div_l; [change 0%Q with (inject_Z 0); rewrite <- Zlt_Qlt; lia|lra]. }
    assert (X : t_deadline t + 1 <= time + t_period t) by (unfold time; nia). rewrite Zle_Qle, inject_Z_plus in X. change (inject_Z 1) with 1%Q in X.
    pose proof (Qle_ceiling bound) as B. assert (Y : Qceiling bound <= Z.of_nat f) by lia. rewrite Zle_Qle in Y. lra.
  - cbn [option_map]. destruct (sequence (map (fun t0 => test_points (S f) t0 s a bound) r)); [discriminate|contradiction].
Qed.

Lemma next_sigma_total : forall K cpus ts maxd step bound t, (forall n, (K <= n)%nat -> (bound < sigma_at maxd step n)%Q) ->
  forall fuel n, (K <= fuel + n)%nat -> (1 <= fuel)%nat -> next_sigma fuel cpus ts maxd step bound t n <> None.
Proof.
  intros K cpus ts maxd step bound t HK. induction fuel as [|f IH]; intros n Hn Hf; [lia|]. cbn [next_sigma].
  destruct (Qle_bool maxd (sigma_at maxd step (S n)) && Qle_bool (sigma_at maxd step (S n)) bound) eqn:E; [|discriminate].
  destruct (witness_condition cpus ts t (sigma_at maxd step (S n))); [discriminate|].
  apply andb_true_iff in E. destruct E as [_ E]. apply Qle_bool_iff in E.
  destruct (Nat.le_gt_cases K (S n)) as [L|L]; [specialize (HK _ L); lra|]. apply IH; lia.
Qed.

Lemma sigma_unbounded : forall maxd step bound, (0 < step)%Q -> (0 <= maxd)%Q -> exists K, forall n, (K <= n)%nat -> (bound < sigma_at maxd step n)%Q.
Proof.
  intros maxd step bound Hs Hm. exists (S (Z.to_nat (Qceiling (bound / step)))). intros n Hn.
  destruct n as [|n]; [lia|]. cbn [sigma_at]. pose proof (Qle_ceiling (bound / step)) as B.
  assert (Y : Qceiling (bound / step) + 1 <= Z.of_nat (S n)) by lia. rewrite Zle_Qle, inject_Z_plus in Y. change (inject_Z 1) with 1%Q in Y.
  assert (X : (bound / step * step < inject_Z (Z.of_nat (S n)) * step)%Q) by (apply Qmult_lt_compat_r; lra).
  setoid_replace (bound / step * step)%Q with bound in X by (field; lra).
  assert (F : 0 <= Qfloor (maxd / step)).
  { change 0 with (Qfloor 0). apply Qfloor_resp_le. apply Qle_shift_div_l; lra. }
  rewrite Zle_Qle in F. change (inject_Z 0) with 0%Q in F.
  assert ((0 <= inject_Z (Qfloor (maxd / step)) * step)%Q) by (apply Qmult_le_0_compat; lra). lra.
Qed.

Lemma ffdbf_loop_total : forall K N cpus ts maxd step sb tb, Forall ok_task ts -> (0 < maxd)%Q -> (0 < step)%Q ->
  (forall n, (K <= n)%nat -> (sb < sigma_at maxd step n)%Q) ->
  (forall fuel s a, (N <= fuel)%nat -> (0 <= a)%Q -> testing_set fuel ts s a tb <> None) ->
  forall pfuel, (N <= pfuel)%nat -> forall fuel n a, (0 <= a)%Q -> (K < fuel + n)%nat -> (1 <= fuel)%nat ->
  ffdbf_loop fuel pfuel cpus ts maxd step sb tb n a <> None.
Proof.
  intros K N cpus ts maxd step sb tb Ho Hm Hs HK HN pfuel Hp. induction fuel as [|f IH]; intros n a Ha Hf H1; [lia|]. cbn [ffdbf_loop].
  destruct (Qle_bool maxd (sigma_at maxd step n) && Qle_bool (sigma_at maxd step n) sb) eqn:E; cbn [negb]; [|discriminate].
  apply andb_true_iff in E. destruct E as [E1 E2]. apply Qle_bool_iff in E1, E2.
  destruct (Qeq_bool (sigma_at maxd step n) 0) eqn:E3; [apply Qeq_bool_iff in E3; lra|].
  assert (Hn : (n < K)%nat) by (destruct (Nat.le_gt_cases K n) as [L|L]; [specialize (HK _ L); lra|assumption]).
  destruct (testing_set pfuel ts (sigma_at maxd step n) a tb) as [l|] eqn:Et; [|exfalso; eapply HN; eassumption].
  destruct (first_failure cpus ts (sigma_at maxd step n) l) as [t|] eqn:Ef; [|discriminate].
  destruct (next_sigma f cpus ts maxd step sb t n) as [[n'|]|] eqn:En; [|discriminate|exfalso; eapply next_sigma_total; [exact HK| | |exact En]; lia].
  destruct (next_sigma_spec _ _ _ _ _ _ _ _ _ En) as [N1 _]. apply IH; try lia.
  unfold first_failure in Ef. apply find_some in Ef. destruct Ef as [Ef _].
  assert (S0 : (0 < sigma_at maxd step n)%Q) by lra. destruct (testing_set_spec _ _ _ _ _ _ Ho S0 Ha Et) as [_ [F _]]. rewrite Forall_forall in F. specialize (F t Ef). lra.
Qed.

Lemma ffdbf_terminates : forall eps g cpus ts, (0 < eps)%Q -> Forall wf_task ts -> Forall constrained ts -> (ts = [] \/ exists t, In t ts /\ 0 < t_cost t) ->
  exists N, forall fuel pfuel, (N <= fuel)%nat -> (N <= pfuel)%nat -> ffdbf_test fuel pfuel eps g cpus ts <> None.
Proof.
  intros eps g cpus ts He Hw Hc Hpos. destruct ts as [|t0 r]; [exists 0%nat; discriminate|]. destruct Hpos as [|[t [Ht Hp]]]; [discriminate|].
  pose proof (ok_of _ Hw Hc) as O.
  assert (M0 : (0 < max_density t0 r)%Q).
  { apply Qlt_le_trans with (density t).
    - rewrite Forall_forall in O. destruct (O t Ht) as [_ [D1 DT]].
      assert (E : (density t * inject_Z (t_deadline t) == inject_Z (t_cost t))%Q) by (unfold density; rewrite Z.min_r by lia; apply zdivq_scale; lia).
      apply (Qmult_lt_r _ _ (inject_Z (t_deadline t))); [change 0%Q with (inject_Z 0); rewrite <- Zlt_Qlt; lia|]. rewrite E, Qmult_0_l.
      change 0%Q with (inject_Z 0). rewrite <- Zlt_Qlt. assumption.
    - apply max_list_ge. destruct Ht as [<-|Ht]; [left; reflexivity|right; apply in_map; assumption]. }
  set (sb := min_q 1 ((inject_Z cpus - ts_utilization (t0 :: r) None) / inject_Z (cpus - 1) - eps)).
  set (tb := (inject_Z (zsum (map t_cost (t0 :: r))) / eps)%Q).
  destruct (sigma_unbounded (max_density t0 r) (1 # g) sb ltac:(reflexivity) ltac:(lra)) as [K HK].
  destruct (testing_set_total (t0 :: r) tb O) as [N HN].
  exists (S (K + N)). intros fuel pfuel F1 F2. unfold ffdbf_test. destruct (cpus <? 2); [discriminate|]. fold sb tb.
  apply (ffdbf_loop_total K N); try assumption; try lia; [reflexivity|lra].
Qed.
