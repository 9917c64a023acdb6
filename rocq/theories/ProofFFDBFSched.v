(** A deadline miss forces a window whose demand exceeds the bound; the window
    can only grow with the speed. *)
From Coq Require Import ZArith QArith Qround List Bool Lia Lqa.
From Verif Require Import Base ModelTasks SpecTasks ProofTasks SpecUni SpecQPA SpecGlobal ProofUni ProofEDF ProofGlobal ProofGFB ModelGEDF ProofGEDF
  ProofBusy ProofBAK ProofBARTop ModelFFDBF ProofFFDBF.
Import ListNotations.
Open Scope Z_scope.

Definition good (m : nat) (ts : taskset) (x s : Q) : Prop := (ts_ffdbf ts x s <= (inject_Z (Z.of_nat m) - inject_Z (Z.of_nat m - 1) * s) * x)%Q.

Definition fast (ts : taskset) (s : Q) : Prop := (0 < s)%Q /\ Forall (fun t => (inject_Z (t_cost t) <= s * inject_Z (t_deadline t))%Q) ts.

Definition ok_task (t : task) : Prop := 0 <= t_cost t /\ 1 <= t_deadline t <= t_period t.

(** a deadline of one of the tasks, measured from time 0 *)
Definition dline (ts : taskset) (x : Q) : Prop := exists t j, In t ts /\ 0 <= j /\ (x == inject_Z (j * t_period t + t_deadline t))%Q.

Lemma fast_mono : forall ts s s', Forall ok_task ts -> (s <= s')%Q -> fast ts s -> fast ts s'.
Proof.
  intros ts s s' Ho Hs [F1 F2]. split; [lra|]. rewrite Forall_forall in *. intros t Ht. specialize (F2 t Ht). destruct (Ho t Ht) as [_ [D _]].
  rewrite Zle_Qle in D. change (inject_Z 1) with 1%Q in D.
  assert ((s * inject_Z (t_deadline t) <= s' * inject_Z (t_deadline t))%Q) by (apply Qmult_le_compat_r; lra). lra.
Qed.

(** the deadline around an interval free of deadlines *)
Lemma around : forall t a b, ok_task t -> (0 <= a)%Q -> (forall j, 0 <= j -> ~ ((a < inject_Z (j * t_period t + t_deadline t))%Q /\ (inject_Z (j * t_period t + t_deadline t) < b)%Q)) ->
  exists j, 0 <= j /\ (inject_Z j * inject_Z (t_period t) + inject_Z (t_deadline t) - inject_Z (t_period t) <= a)%Q /\
    (b <= inject_Z j * inject_Z (t_period t) + inject_Z (t_deadline t))%Q.
Proof.
  intros t a b [HC HD] Ha Hno. set (T := t_period t) in *. set (D := t_deadline t) in *.
  set (c := Qceiling b). assert (Hc : (b <= inject_Z c)%Q) by apply Qle_ceiling.
  set (j := Z.max 0 ((c - D + (T - 1)) / T)).
  assert (J0 : 0 <= j) by (unfold j; lia).
  assert (J2 : c <= j * T + D).
  { pose proof (Z.mul_succ_div_gt (c - D + (T - 1)) T ltac:(lia)). unfold j. nia. }
  assert (J3 : j = 0 \/ (j - 1) * T + D < c).
  { unfold j. destruct (Z.max_spec 0 ((c - D + (T - 1)) / T)) as [[_ ->]|[_ ->]]; [right|left; reflexivity].
    pose proof (Z.mul_div_le (c - D + (T - 1)) T ltac:(lia)). lia. }
  exists j. split; [assumption|]. split.
  - destruct J3 as [J3|J3].
    + rewrite J3. change (inject_Z 0) with 0%Q. assert (X : D <= T) by lia. rewrite Zle_Qle in X. lra.
    + destruct (Z.eq_dec j 0) as [Z0|Z0].
      { rewrite Z0. change (inject_Z 0) with 0%Q. assert (X : D <= T) by lia. rewrite Zle_Qle in X. lra. }
      assert (X : ((inject_Z ((j - 1) * T + D)) < b)%Q).
      { apply Qnot_le_lt. intros X. apply Qceiling_resp_le in X. rewrite Qceiling_Z in X. fold c in X. lia. }
      specialize (Hno (j - 1) ltac:(lia)). apply Qnot_lt_le. intros Y. apply Hno. split; [|assumption].
      rewrite inject_Z_plus, inject_Z_mult, inject_sub. change (inject_Z 1) with 1%Q. lra.
  - rewrite Zle_Qle, inject_Z_plus, inject_Z_mult in J2. lra.
Qed.

Lemma good_convex : forall m ts a b sa sb l x sx, (1 <= m)%nat -> Forall ok_task ts -> (0 <= a)%Q -> (a <= b)%Q -> fast ts sa -> (sa <= sb)%Q ->
  (forall y, dline ts y -> ~ ((a < y)%Q /\ (y < b)%Q)) -> (0 <= l)%Q -> (l <= 1)%Q ->
  (x == a + l * (b - a))%Q -> (sx == sa + l * (sb - sa))%Q -> good m ts a sa -> good m ts b sb -> good m ts x sx.
Proof.
  intros m ts a b sa sb l x sx Hm Ho Ha Hab [F0 F] Hss Hno L0 L1 Ex Es Ga Gb. unfold good in *.
  assert (S : (ts_ffdbf ts x sx <= (1 - l) * ts_ffdbf ts a sa + l * ts_ffdbf ts b sb)%Q).
  { unfold ts_ffdbf. clear Ga Gb. induction ts as [|t r IH]; [cbn; lra|]. inversion Ho; subst. inversion F; subst.
    cbn [map qsum fold_right]. change (fold_right Qplus 0%Q) with qsum.
    assert (I : (qsum (map (fun t0 : task => ffdbf t0 x sx) r) <=
      (1 - l) * qsum (map (fun t0 : task => ffdbf t0 a sa) r) + l * qsum (map (fun t0 : task => ffdbf t0 b sb) r))%Q).
    { apply IH; [assumption|assumption|]. intros y [t0 [j [Y1 Y2]]]. apply Hno. exists t0, j. split; [right; assumption|assumption]. }
    destruct (around t a b H1 Ha) as [j [J0 [J1 J2]]].
    { intros j Hj. apply Hno. exists t, j. split; [left; reflexivity|]. split; [assumption|reflexivity]. }
    destruct H1 as [HC HD].
    pose proof (ff_convex t HC HD j a b sa sb l x sx J0 Ha Hab F0 H3 Hss J1 J2 L0 L1 Ex Es) as X. lra. }
  set (M := inject_Z (Z.of_nat m)) in *. set (M1 := inject_Z (Z.of_nat m - 1)) in *.
  assert (M0 : (0 <= M1)%Q) by (unfold M1; change 0%Q with (inject_Z 0); rewrite <- Zle_Qle; lia).
  set (fa := ts_ffdbf ts a sa) in *. set (fb := ts_ffdbf ts b sb) in *.
  assert (X1 : ((1 - l) * fa <= (1 - l) * ((M - M1 * sa) * a))%Q) by (rewrite !(Qmult_comm (1 - l)); apply Qmult_le_compat_r; lra).
  assert (X2 : (l * fb <= l * ((M - M1 * sb) * b))%Q) by (rewrite !(Qmult_comm l); apply Qmult_le_compat_r; lra).
  assert (P2 : (0 <= (1 - l) * (b - a))%Q) by (apply Qmult_le_0_compat; lra).
  assert (P3 : (0 <= l * (sb - sa))%Q) by (apply Qmult_le_0_compat; lra).
  assert (X3 : (0 <= M1 * ((1 - l) * (b - a) * (l * (sb - sa))))%Q) by (apply Qmult_le_0_compat; [assumption|apply Qmult_le_0_compat; assumption]).
  eapply Qle_trans; [exact S|]. rewrite Ex, Es.
  setoid_replace ((M - M1 * (sa + l * (sb - sa))) * (a + l * (b - a)))%Q with
    ((1 - l) * ((M - M1 * sa) * a) + l * ((M - M1 * sb) * b) + M1 * ((1 - l) * (b - a) * (l * (sb - sa))))%Q by ring.
  lra.
Qed.

Lemma good_zero : forall m ts x s, Forall ok_task ts -> fast ts s -> (x == 0)%Q -> good m ts x s.
Proof.
  intros m ts x s Ho [F0 F] Hx. unfold good. assert (S : (ts_ffdbf ts x s == 0)%Q).
  { unfold ts_ffdbf. induction ts as [|t r IH]; [reflexivity|]. inversion Ho; subst. inversion F; subst.
    cbn [map qsum fold_right]. change (fold_right Qplus 0%Q) with qsum. rewrite IH by assumption. destruct H1 as [HC HD].
    rewrite (ff_zero t HC HD s F0 H3 x Hx). reflexivity. }
  rewrite S, Hx. lra.
Qed.

Lemma good_late : forall m ts eps x s, (2 <= m)%nat -> Forall ok_task ts -> (0 < s)%Q -> (0 < eps)%Q ->
  (s <= (inject_Z (Z.of_nat m) - ts_utilization ts None) / inject_Z (Z.of_nat m - 1) - eps)%Q ->
  (inject_Z (zsum (map t_cost ts)) / eps <= x)%Q -> good m ts x s.
Proof.
  intros m ts eps x s Hm Ho Hs He Hb Hx. unfold good.
  assert (C0 : (0 <= inject_Z (zsum (map t_cost ts)))%Q).
  { change 0%Q with (inject_Z 0). rewrite <- Zle_Qle. clear - Ho. induction Ho as [|t r [H _] _ IH]; cbn [map]; [cbn; lia|].
    change (zsum (t_cost t :: map t_cost r)) with (t_cost t + zsum (map t_cost r)). lia. }
  assert (X0 : (inject_Z (zsum (map t_cost ts)) <= eps * x)%Q).
  { assert (Y : (inject_Z (zsum (map t_cost ts)) / eps * eps <= x * eps)%Q) by (apply Qmult_le_compat_r; lra).
    setoid_replace (inject_Z (zsum (map t_cost ts)) / eps * eps)%Q with (inject_Z (zsum (map t_cost ts))) in Y by (field; lra). lra. }
  assert (Hx0 : (0 <= x)%Q).
  { eapply Qle_trans; [|exact Hx]. apply Qle_shift_div_l; lra. }
  assert (S : (ts_ffdbf ts x s <= ts_utilization ts None * x + inject_Z (zsum (map t_cost ts)))%Q).
  { unfold ts_ffdbf, ts_utilization. clear - Ho Hs Hx0. induction ts as [|t r IH]; [cbn [map qsum fold_right]; change (inject_Z (zsum [])) with 0%Q; lra|]. inversion Ho; subst.
    cbn [map qsum fold_right zsum]. change (fold_right Qplus 0%Q) with qsum. specialize (IH H2). destruct H1 as [HC HD].
    pose proof (ff_linear t HC HD s Hs x Hx0) as X. change (zsum (t_cost t :: map t_cost r)) with (t_cost t + zsum (map t_cost r)).
    rewrite inject_Z_plus. cbn [ts_utilization] in IH. lra. }
  set (U := ts_utilization ts None) in *. set (M := inject_Z (Z.of_nat m)) in *. set (M1 := inject_Z (Z.of_nat m - 1)) in *.
  assert (HM1 : (1 <= M1)%Q) by (unfold M1; change 1%Q with (inject_Z 1); rewrite <- Zle_Qle; lia).
  assert (B : (M1 * s <= M - U - M1 * eps)%Q).
  { assert (Y : (s * M1 <= ((M - U) / M1 - eps) * M1)%Q) by (apply Qmult_le_compat_r; lra).
    setoid_replace (((M - U) / M1 - eps) * M1)%Q with (M - U - M1 * eps)%Q in Y by (field; lra). lra. }
  assert (E : (eps <= M1 * eps)%Q) by (setoid_replace eps with (1 * eps)%Q at 1 by ring; apply Qmult_le_compat_r; lra).
  assert (G : ((U + eps) * x <= (M - M1 * s) * x)%Q) by (apply Qmult_le_compat_r; lra). lra.
Qed.

(** ** The schedule *)
Section Miss.
  Variables (m : nat) (ts : taskset) (s : jobseq) (sc : gschedule).
  Let es := map e_of ts.
  Hypothesis Hm2 : (2 <= m)%nat.
  Hypothesis Hw : Forall wf_task ts.
  Hypothesis Hc : Forall constrained ts.
  Hypothesis Hl : legal_edf es s.
  Hypothesis Hv : gvalid (length es) m s sc.
  Hypothesis Hp : gedf es m s sc.
  Variable d : nat.
  Hypothesis IHd : forall i h d', (i < length es)%nat -> (d' < d)%nat -> Z.of_nat d' = due es s (i, h) -> gcompleted s sc (i, h) d'.
  Variables k q : nat.
  Hypothesis Hk : (k < length es)%nat.
  Hypothesis Hdue : due es s (k, q) = Z.of_nat d.
  Hypothesis Hmiss : gservice sc (k, q) d < Z.of_nat (cst s k q).

  Definition over (sg : Q) (t : nat) : Prop := overloaded es m s sc d (Qnum sg) (Zpos (Qden sg)) t = true.
  Definition window (sg : Q) (n : Z) : Prop := exists t, (t < d)%nat /\ over sg t /\ n <= Z.of_nat d - Z.of_nat t.

  Lemma over_mono : forall sg sg' t, (t < d)%nat -> (sg <= sg')%Q -> over sg t -> over sg' t.
  Proof.
    intros [p1 q1] [p2 q2] t Ht Hle. unfold over, overloaded. cbn [Qnum Qden]. rewrite !Z.ltb_lt. unfold Qle in Hle. cbn [Qnum Qden] in Hle.
    intros H. set (W := Sall es s sc d d - Sall es s sc d t) in *. set (L := Z.of_nat d - Z.of_nat t) in *. assert (0 < L) by (unfold L; lia).
    set (M := Z.of_nat m) in *. assert (2 <= M) by (unfold M; lia).
    apply (Z.mul_lt_mono_pos_l (Zpos q1)); [lia|].
    assert (X : Zpos q2 * ((M * Zpos q1 - (M - 1) * p1) * L) < Zpos q2 * (Zpos q1 * W)) by (apply Z.mul_lt_mono_pos_l; lia).
    assert (Y : (M - 1) * L * (p1 * Zpos q2) <= (M - 1) * L * (p2 * Zpos q1)) by (apply Z.mul_le_mono_nonneg_l; nia).
    nia.
  Qed.

  Lemma ok_tasks : Forall ok_task ts.
  Proof.
    rewrite Forall_forall in *. intros t Ht. destruct (Hw t Ht) as [A [B _]]. specialize (Hc t Ht). unfold constrained in Hc. split; [assumption|lia].
  Qed.

  Lemma HDe : forall i, (i < length es)%nat -> 1 <= e_deadline (et es i) <= e_period (et es i).
  Proof.
    intros i Hi. unfold es in *. rewrite map_length in Hi. rewrite et_of. cbn. pose proof ok_tasks as O. rewrite Forall_forall in O.
    apply O. apply nth_In. assumption.
  Qed.

  Lemma fast_k : forall sg, fast ts sg -> e_cost (et es k) * Zpos (Qden sg) <= Qnum sg * e_deadline (et es k).
  Proof.
    intros [p1 q1] [_ F]. unfold es. rewrite et_of. cbn [e_of e_cost e_deadline Qnum Qden]. rewrite Forall_forall in F.
    unfold es in Hk. rewrite map_length in Hk. specialize (F (nth k ts dt) (nth_In _ _ Hk)). unfold Qle in F. cbn in F. lia.
  Qed.

  Lemma pp_range : forall sg, (0 < sg)%Q -> (sg <= 1)%Q -> 0 <= Qnum sg <= Zpos (Qden sg).
  Proof. intros [p1 q1] A B. unfold Qlt, Qle in *. cbn in *. lia. Qed.

  Lemma window_start : forall sg, fast ts sg -> (sg <= 1)%Q -> window sg 1.
  Proof.
    intros sg F H1. exists (arr s k q). pose proof (miss_arr es s d k q Hdue) as Ed. pose proof (HDe k Hk) as Hd.
    split; [lia|]. split; [|lia]. unfold over. destruct F as [F0 F].
    apply overloaded_arrival with (q := q); try assumption; try lia; [apply wf_e_of; assumption|apply HDe|apply pp_range; assumption|apply fast_k; split; assumption].
  Qed.

  Lemma window_mono : forall sg sg' n, (sg <= sg')%Q -> window sg n -> window sg' n.
  Proof. intros sg sg' n H [t [A [B E]]]. exists t. split; [assumption|]. split; [|assumption]. eapply over_mono; eassumption. Qed.

  Lemma window_grow : forall sg n, 1 <= n -> fast ts sg -> (sg <= 1)%Q -> good m ts (inject_Z n) sg -> window sg n -> window sg (n + 1).
  Proof.
    intros sg n Hn F H1 G [t0 [A [B E]]]. destruct F as [F0 F].
    destruct (extend_from es m s sc (wf_e_of ts Hw) Hl Hv Hp ltac:(lia) HDe d IHd k q Hk Hdue (Qnum sg) (Zpos (Qden sg)) ltac:(lia) (pp_range sg F0 H1) Hm2 t0 A B) as [t [Ht [Ho Hb]]].
    cbv beta zeta in Hb.
    exists t. split; [lia|]. split; [exact Ho|].
    destruct (Z.eq_dec (Z.of_nat d - Z.of_nat t) n) as [En|En]; [exfalso|lia].
    assert (S : (inject_Z (Sall es s sc d d - Sall es s sc d t) <= ts_ffdbf ts (inject_Z n) sg)%Q).
    { rewrite !Sall_task. unfold es at 2 4. rewrite map_length. rewrite <- sumf_sub. rewrite <- qsum_inject.
      unfold ts_ffdbf. rewrite <- (qsum_nth_eq (fun t => ffdbf t (inject_Z n) sg) ts).
      apply qsum_le. intros i Hi. apply in_seq in Hi. assert (Hi' : (i < length ts)%nat) by lia.
      destruct (Hb i ltac:(unfold es; rewrite map_length; lia)) as [N [phi [N0 [P0 [W1 W2]]]]].
      unfold es in W1, W2 |- *. rewrite ?et_of in W1. rewrite ?et_of in W2. cbn [e_of e_cost e_deadline e_period] in W1, W2.
      pose proof ok_tasks as O. rewrite Forall_forall in O, F. destruct (O (nth i ts dt) (nth_In ts dt Hi')) as [HC HD].
      specialize (F (nth i ts dt) (nth_In ts dt Hi')).
      apply (ff_work (nth i ts dt) HC HD sg F0 F _ N phi n); try assumption; try lia.
      destruct W2 as [W2|[W2 [W3 [W4 W5]]]]; [left; assumption|right]. split; [rewrite <- En; assumption|]. split; [assumption|].
      set (W := Stask (map e_of ts) s sc d i d - Stask (map e_of ts) s sc d i t) in *.
      rewrite <- inject_sub. destruct sg as [p1 q1]. cbn [Qnum Qden] in W5. unfold Qle. cbn. lia. }
    unfold good in G. unfold overloaded in Ho. apply Z.ltb_lt in Ho. rewrite En in Ho.
    set (W := Sall es s sc d d - Sall es s sc d t) in *.
    assert (X : ((inject_Z (Z.of_nat m) - inject_Z (Z.of_nat m - 1) * sg) * inject_Z n < inject_Z W)%Q).
    { destruct sg as [p1 q1]. cbn [Qnum Qden] in Ho. unfold Qlt. cbn. rewrite !Pos.mul_1_r. nia. }
    lra.
  Qed.

  (** a window longer than x *)
  Definition reach (x sg : Q) : Prop := window sg (Qfloor x + 1).

  Lemma reach_mono : forall x y sg sg', (y <= x)%Q -> (sg <= sg')%Q -> reach x sg -> reach y sg'.
  Proof.
    intros x y sg sg' Hy Hs H. apply (window_mono sg sg' _ Hs). destruct H as [t [A [B E]]]. exists t. split; [assumption|]. split; [assumption|].
    apply Qfloor_resp_le in Hy. lia.
  Qed.

  Lemma reach_seg : forall a b sa sb, (0 <= a)%Q -> (a <= b)%Q -> fast ts sa -> (sa <= sb)%Q -> (sb <= 1)%Q ->
    (forall y, dline ts y -> ~ ((a < y)%Q /\ (y < b)%Q)) -> good m ts a sa -> good m ts b sb -> reach a sa -> reach b sb.
  Proof.
    intros a b sa sb Ha Hab F Hss Hs1 Hno Ga Gb R.
    destruct (Qlt_le_dec a b) as [Lt|Le]; [|apply (reach_mono a b sa sb); assumption].
    assert (Fa0 : 0 <= Qfloor a) by (change 0 with (Qfloor 0); apply Qfloor_resp_le; assumption).
    set (sig := fun n : Z => (sa + (inject_Z n - a) / (b - a) * (sb - sa))%Q).
    assert (Hsig : forall n, (a <= inject_Z n)%Q -> (inject_Z n <= b)%Q -> (sa <= sig n)%Q /\ (sig n <= sb)%Q /\ good m ts (inject_Z n) (sig n)).
    { intros n N1 N2. set (l := ((inject_Z n - a) / (b - a))%Q).
      assert (L0 : (0 <= l)%Q) by (apply Qle_shift_div_l; lra). assert (L1 : (l <= 1)%Q) by (apply Qle_shift_div_r; lra).
      assert (P1 : (0 <= l * (sb - sa))%Q) by (apply Qmult_le_0_compat; lra).
      assert (P2 : (0 <= (1 - l) * (sb - sa))%Q) by (apply Qmult_le_0_compat; lra).
      split; [unfold sig; fold l; lra|]. split; [unfold sig; fold l; lra|].
      apply (good_convex m ts a b sa sb l); try assumption; [lia|apply ok_tasks|unfold l; field; lra|unfold sig; fold l; reflexivity]. }
    assert (Mono : forall n, (sig n <= sig (n + 1)%Z)%Q).
    { intros n. unfold sig. rewrite inject_Z_plus. change (inject_Z 1) with 1%Q.
      setoid_replace ((inject_Z n + 1 - a) / (b - a))%Q with ((inject_Z n - a) / (b - a) + 1 / (b - a))%Q by (field; lra).
      assert (X : (0 <= 1 / (b - a))%Q) by (apply Qle_shift_div_l; lra).
      assert (Y : (0 <= 1 / (b - a) * (sb - sa))%Q) by (apply Qmult_le_0_compat; lra). lra. }
    set (cur := fun j : nat => match j with O => sa | S _ => sig (Qfloor a + Z.of_nat j) end).
    assert (Hn : forall j, Qfloor a + Z.of_nat (S j) <= Qfloor b -> (a <= inject_Z (Qfloor a + Z.of_nat (S j))%Z)%Q /\ (inject_Z (Qfloor a + Z.of_nat (S j))%Z <= b)%Q).
    { intros j Hj. split.
      - pose proof (Qlt_floor a) as X. assert (Y : Qfloor a + 1 <= Qfloor a + Z.of_nat (S j)) by lia. rewrite Zle_Qle in Y. lra.
      - pose proof (Qfloor_le b) as X. rewrite Zle_Qle in Hj. lra. }
    assert (G : forall j : nat, Qfloor a + Z.of_nat j <= Qfloor b -> window (cur j) (Qfloor a + Z.of_nat j + 1)).
    { induction j as [|j IHj]; intros Hj; [rewrite Z.add_0_r; exact R|].
      specialize (IHj ltac:(lia)). destruct (Hn j Hj) as [N1 N2]. destruct (Hsig _ N1 N2) as [T1 [T2 T3]].
      assert (En : Qfloor a + Z.of_nat j + 1 = Qfloor a + Z.of_nat (S j)) by lia. rewrite En in IHj.
      cbn [cur]. change (cur (S j)) with (sig (Qfloor a + Z.of_nat (S j))).
      apply window_grow; [lia|eapply fast_mono; [apply ok_tasks|exact T1|exact F]|lra|exact T3|].
      eapply window_mono; [|exact IHj]. destruct j as [|j]; [exact T1|]. change (cur (S j)) with (sig (Qfloor a + Z.of_nat (S j))).
      rewrite <- En. apply Mono. }
    assert (Fab : Qfloor a <= Qfloor b) by (apply Qfloor_resp_le; lra).
    specialize (G (Z.to_nat (Qfloor b - Qfloor a)) ltac:(lia)). rewrite Z2Nat.id in G by lia. replace (Qfloor a + (Qfloor b - Qfloor a)) with (Qfloor b) in G by lia.
    unfold reach. eapply window_mono; [|exact G]. destruct (Z.to_nat (Qfloor b - Qfloor a)) as [|j] eqn:Ej; [exact Hss|].
    change (cur (S j)) with (sig (Qfloor a + Z.of_nat (S j))). destruct (Hn j ltac:(lia)) as [N1 N2]. apply Hsig; assumption.
  Qed.

  (** a speed that passes everywhere after x excludes the miss *)
  Lemma reach_end : forall x sg, (0 <= x)%Q -> fast ts sg -> (sg <= 1)%Q -> (forall y, (x <= y)%Q -> good m ts y sg) -> reach x sg -> False.
  Proof.
    intros x sg Hx F H1 G R.
    assert (Fx : 0 <= Qfloor x) by (change 0 with (Qfloor 0); apply Qfloor_resp_le; assumption).
    assert (W : forall j : nat, window sg (Qfloor x + 1 + Z.of_nat j)).
    { induction j as [|j IHj]; [rewrite Z.add_0_r; exact R|].
      replace (Qfloor x + 1 + Z.of_nat (S j)) with (Qfloor x + 1 + Z.of_nat j + 1) by lia.
      apply window_grow; try assumption; [lia|]. apply G. pose proof (Qlt_floor x) as X.
      assert (Y : Qfloor x + 1 <= Qfloor x + 1 + Z.of_nat j) by lia. rewrite Zle_Qle in Y. lra. }
    destruct (W d) as [t [A [_ E]]]. lia.
  Qed.
End Miss.
