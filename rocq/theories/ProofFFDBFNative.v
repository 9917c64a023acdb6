(** The C++ version of the FF-DBF test: it computes what the Python version computes. *)
From Coq Require Import ZArith QArith Qround List Bool Lia Lqa Permutation Sorted.
From Verif Require Import Base ModelTasks SpecTasks ProofTasks SpecUni SpecQPA SpecGlobal ProofUni ProofEDF ProofGlobal ModelNative ModelGEDF ModelGEDFNative
  ProofGEDF ProofGEDFNative ProofGEDFOrder ProofBAK ModelFFDBF ProofFFDBF ProofFFDBFSched ProofFFDBFTop ProofEDFOrder ModelLA ProofLAPoints ProofLA ProofNB ModelFFDBFNative.
Import ListNotations.
Open Scope Z_scope.

(** ** The demand *)
Lemma q_trunc_floor : forall x, (0 <= x)%Q -> q_trunc x = Qfloor x.
Proof.
  intros [n d] H. unfold q_trunc. cbn. unfold Qle in H. cbn in H. apply Z.quot_div_nonneg; lia.
Qed.

Lemma zq_pos : forall z, 0 < z -> (0 < inject_Z z)%Q.
Proof. intros z H. change 0%Q with (inject_Z 0). rewrite <- Zlt_Qlt. assumption. Qed.

Lemma zq_nonneg : forall z, 0 <= z -> (0 <= inject_Z z)%Q.
Proof. intros z H. change 0%Q with (inject_Z 0). rewrite <- Zle_Qle. assumption. Qed.

Lemma div_nonneg : forall a b, (0 <= a)%Q -> (0 < b)%Q -> (0 <= a / b)%Q.
Proof. intros a b Ha Hb. apply Qle_shift_div_l; [assumption|]. rewrite Qmult_0_l. assumption. Qed.

Lemma nf_task_eq : forall t x s d, nb_ok t -> (0 <= x)%Q -> (0 < s)%Q ->
  (n_ffdbf_task t s (fst (get_q_r t x)) (snd (get_q_r t x)) d == d + ffdbf (back t) x s)%Q.
Proof.
  intros t x s d [T1 [T2 T3]] Hx Hs. unfold n_ffdbf_task, get_q_r, ffdbf. cbn [fst snd back t_period t_cost t_deadline]. cbv zeta.
  rewrite q_trunc_floor by (apply div_nonneg; [assumption|apply zq_pos; lia]).
  set (q := Qfloor (x / inject_Z (n_period t))).
  assert (Er : (x - inject_Z (q * n_period t) == x - inject_Z q * inject_Z (n_period t))%Q) by (rewrite inject_Z_mult; ring).
  set (r := (x - inject_Z (q * n_period t))%Q) in *. set (r' := (x - inject_Z q * inject_Z (n_period t))%Q) in *.
  assert (Cs : (0 <= inject_Z (n_wcet t) / s)%Q) by (apply div_nonneg; [apply zq_nonneg; lia|assumption]).
  assert (Et : ((0 - inject_Z (n_wcet t)) / s + inject_Z (n_deadline t) == inject_Z (n_deadline t) - inject_Z (n_wcet t) / s)%Q) by (field; lra).
  rewrite (Qle_bool_congr _ _ _ _ Et Er), (Qle_bool_congr _ _ _ _ Er (Qeq_refl (inject_Z (n_deadline t)))).
  destruct (Qle_bool (inject_Z (n_deadline t)) r') eqn:E1.
  - apply Qle_bool_iff in E1. assert (E2 : Qle_bool (inject_Z (n_deadline t) - inject_Z (n_wcet t) / s) r' = true) by (apply Qle_bool_iff; lra). rewrite E2.
    destruct (Qle_bool r' (inject_Z (n_deadline t))) eqn:E3; [|ring]. apply Qle_bool_iff in E3.
    assert (E4 : (inject_Z (n_deadline t) - r == 0)%Q) by (rewrite Er; lra). rewrite E4. ring.
  - apply qle_false in E1. destruct (Qle_bool (inject_Z (n_deadline t) - inject_Z (n_wcet t) / s) r'); [|ring].
    assert (E3 : Qle_bool r' (inject_Z (n_deadline t)) = true) by (apply Qle_bool_iff; lra). rewrite E3, Er. ring.
Qed.

Lemma n_ffdbf_congr : forall t s q r d d', (d == d')%Q -> (n_ffdbf_task t s q r d == n_ffdbf_task t s q r d')%Q.
Proof.
  intros t s q r d d' H. unfold n_ffdbf_task. cbv zeta. destruct (Qle_bool _ r); [|rewrite H; reflexivity]. destruct (Qle_bool r _); rewrite H; reflexivity.
Qed.

Lemma nf_ts_eq : forall ts x s, Forall nb_ok ts -> (0 <= x)%Q -> (0 < s)%Q -> (n_ffdbf_ts ts (compute_q_r ts x) s == ts_ffdbf (map back ts) x s)%Q.
Proof.
  intros ts x s H Hx Hs. unfold n_ffdbf_ts, ts_ffdbf, compute_q_r. rewrite map_map.
  enough (G : forall a, (fold_left (fun demand p => n_ffdbf_task (fst p) s (fst (snd p)) (snd (snd p)) demand) (combine ts (map (fun t => get_q_r t x) ts)) a ==
    a + qsum (map (fun t => ffdbf (back t) x s) ts))%Q) by (rewrite G; ring).
  induction H as [|t ts Ht _ IH]; intros a; cbn [map combine fold_left]; [cbn; ring|]. rewrite IH. cbn [fst snd]. rewrite nf_task_eq by assumption. cbn [qsum fold_right]. unfold qsum. ring.
Qed.

Lemma n_witness_eq : forall m ts x s, Forall nb_ok ts -> (0 <= x)%Q -> (0 < s)%Q ->
  n_witness m ts (compute_q_r ts x) x s = witness_condition m (map back ts) x s.
Proof.
  intros m ts x s H Hx Hs. unfold n_witness, witness_condition. cbv zeta. apply Qle_bool_congr; [apply nf_ts_eq; assumption|].
  rewrite inject_Z_opp. apply Qmult_comp; [|reflexivity]. ring.
Qed.

(** ** The test points of one task *)
Definition kth (z : Q) (k : nat) (T : Z) : Q := (z + inject_Z (Z.of_nat k * T))%Q.

(** the points that an iterator will deliver *)
Definition on_stream (p : tpoint) (x : Q) : Prop :=
  exists k : nat, (x == kth (tp_time p) k (tp_period p))%Q \/ (x == kth (tp_offset p) (k + if tp_first p then 0 else 1) (tp_period p))%Q.

Definition tp_ok (p : tpoint) : Prop :=
  0 < tp_period p /\ (tp_offset p <= tp_time p)%Q /\ (tp_time p <= tp_offset p + inject_Z (tp_period p))%Q.

Lemma ok_next : forall p, tp_ok p -> tp_ok (tp_next p).
Proof.
  intros p [H1 [H2 H3]]. unfold tp_next, tp_ok. destruct (tp_first p); cbn [tp_period tp_time tp_offset]; [tauto|]. split; [assumption|]. split; lra.
Qed.

Lemma kth_S : forall z k T, (kth z (S k) T == kth (z + inject_Z T) k T)%Q.
Proof. intros. unfold kth. rewrite Nat2Z.inj_succ, <- Z.add_1_r, Z.mul_add_distr_r, inject_Z_plus, Z.mul_1_l. ring. Qed.

Lemma kth_0 : forall z T, (kth z 0 T == z)%Q.
Proof. intros. unfold kth. cbn. ring. Qed.

Lemma os_unfold : forall p x, on_stream p x <-> (x == tp_cur p)%Q \/ on_stream (tp_next p) x.
Proof.
  intros [time off T first] x. unfold on_stream, tp_next, tp_cur. destruct first; cbn [tp_time tp_offset tp_period tp_first].
  - split.
    + intros [k [H|H]]; [right; exists k; left; assumption|]. rewrite Nat.add_0_r in H. destruct k as [|k]; [left; rewrite H; apply kth_0|].
      right. exists k. right. rewrite Nat.add_1_r. assumption.
    + intros [H|[k [H|H]]]; [exists 0%nat; right; rewrite H; symmetry; apply kth_0|exists k; left; assumption|].
      exists (S k). right. rewrite Nat.add_0_r. rewrite Nat.add_1_r in H. assumption.
  - split.
    + intros [k [H|H]].
      * destruct k as [|k]; [left; rewrite H; apply kth_0|]. right. exists k. left. rewrite H. apply kth_S.
      * right. exists k. right. rewrite Nat.add_0_r. rewrite Nat.add_1_r in H. rewrite H. apply kth_S.
    + intros [H|[k [H|H]]]; [exists 0%nat; left; rewrite H; symmetry; apply kth_0| |].
      * exists (S k). left. rewrite H. symmetry. apply kth_S.
      * exists k. right. rewrite Nat.add_1_r. rewrite Nat.add_0_r in H. rewrite H. symmetry. apply kth_S.
Qed.

Lemma kth_ge : forall z k T, 0 < T -> (z <= kth z k T)%Q.
Proof. intros z k T H. unfold kth. assert (X : (0 <= inject_Z (Z.of_nat k * T))%Q) by (apply zq_nonneg; nia). lra. Qed.

Lemma os_ge : forall p x, tp_ok p -> on_stream p x -> (tp_cur p <= x)%Q.
Proof.
  intros [time off T first] x [H1 [H2 H3]] [k H]. unfold tp_cur. cbn [tp_time tp_offset tp_period tp_first] in *.
  pose proof (kth_ge time k T H1) as K1. pose proof (kth_ge off k T H1) as K2. pose proof (kth_ge (off + inject_Z T) k T H1) as K3.
  destruct first; destruct H as [H|H]; [lra| |lra|].
  - rewrite Nat.add_0_r in H. lra.
  - rewrite Nat.add_1_r, kth_S in H. lra.
Qed.

Lemma skip_spec : forall fuel a p p', tp_ok p -> tp_skip fuel a p = Some p' -> tp_ok p' /\ forall x, on_stream p' x <-> on_stream p x /\ (a < x)%Q.
Proof.
  induction fuel as [|f IH]; intros a p p' Hp H; [discriminate|]. cbn [tp_skip] in H. destruct (Qle_bool (tp_cur p) a) eqn:E.
  - apply Qle_bool_iff in E. destruct (IH _ _ _ (ok_next p Hp) H) as [A B]. split; [assumption|]. intros x. rewrite B, (os_unfold p x). split.
    + intros [X Y]. split; [right; assumption|assumption].
    + intros [[X|X] Y]; [lra|split; assumption].
  - apply qle_false in E. injection H as <-. split; [assumption|]. intros x. split; [|tauto]. intros X. split; [assumption|]. pose proof (os_ge p x Hp X). lra.
Qed.

Definition base_time (t : ntask) (a : Q) : Q := inject_Z (Qfloor (a / inject_Z (n_period t)) * n_period t + n_deadline t).
Definition base_off (t : ntask) (s : Q) : Q := min_q (inject_Z (n_wcet t) / s) (inject_Z (n_deadline t)).

(** the points of a task after time [a] *)
Definition task_points (t : ntask) (s a x : Q) : Prop :=
  (a < x)%Q /\ exists k : nat, (x == kth (base_time t a) k (n_period t))%Q \/ (x == kth (base_time t a - base_off t s) k (n_period t))%Q.

Lemma base_off_spec : forall t s, nb_ok t -> (0 < s)%Q -> (0 <= base_off t s)%Q /\ (base_off t s <= inject_Z (n_deadline t))%Q.
Proof.
  intros t s [T1 [T2 T3]] Hs. unfold base_off. destruct (min_q_spec (inject_Z (n_wcet t) / s) (inject_Z (n_deadline t))) as [A [B C]]. split; [|assumption].
  destruct C as [-> | ->]; [apply div_nonneg; [apply zq_nonneg; lia|assumption]|apply zq_nonneg; lia].
Qed.

Lemma floor_bounds : forall a T, 0 < T -> (inject_Z (Qfloor (a / inject_Z T) * T) <= a)%Q /\ (a < inject_Z (Qfloor (a / inject_Z T) * T) + inject_Z T)%Q.
Proof.
  intros a T HT. pose proof (zq_pos T HT) as P. pose proof (Qfloor_le (a / inject_Z T)) as F1. pose proof (Qlt_floor (a / inject_Z T)) as F2.
  rewrite inject_Z_mult. rewrite inject_Z_plus in F2. change (inject_Z 1) with 1%Q in F2.
  assert (E : (a == a / inject_Z T * inject_Z T)%Q) by (field; lra).
  split.
  - rewrite E at 2. apply Qmult_le_compat_r; lra.
  - rewrite E at 1. assert (X : (a / inject_Z T * inject_Z T < (inject_Z (Qfloor (a / inject_Z T)) + 1) * inject_Z T)%Q) by (apply Qmult_lt_compat_r; assumption). lra.
Qed.

Lemma tp_init_spec : forall t s a, nb_ok t -> (0 < s)%Q -> (0 <= a)%Q -> exists p, tp_init t s a = Some p /\ tp_ok p /\ forall x, on_stream p x <-> task_points t s a x.
Proof.
  intros t s a Ht Hs Ha. pose proof Ht as [T1 [T2 T3]]. destruct (base_off_spec t s Ht Hs) as [O1 O2].
  destruct (floor_bounds a (n_period t) ltac:(lia)) as [F1 F2].
  unfold tp_init. rewrite q_trunc_floor by (apply div_nonneg; [assumption|apply zq_pos; lia]). cbv zeta.
  fold (min_q (inject_Z (n_wcet t) / s) (inject_Z (n_deadline t))). fold (base_off t s).
  set (time := (inject_Z (Qfloor (a / inject_Z (n_period t))) * inject_Z (n_period t) + inject_Z (n_deadline t))%Q).
  assert (Et : (time == base_time t a)%Q) by (unfold time, base_time; rewrite inject_Z_plus, inject_Z_mult; reflexivity).
  set (p0 := TPoint time (base_off t s * -1 + time)%Q (n_period t) true).
  assert (DT : (inject_Z (n_deadline t) <= inject_Z (n_period t))%Q) by (rewrite <- Zle_Qle; lia).
  assert (P0 : tp_ok p0).
  { unfold tp_ok, p0; cbn [tp_period tp_offset tp_time]. split; [lia|]. split; lra. }
  assert (Ex : exists p, tp_skip 3 a p0 = Some p).
  { cbn [tp_skip]. destruct (Qle_bool (tp_cur p0) a); [|eexists; reflexivity]. destruct (Qle_bool (tp_cur (tp_next p0)) a); [|eexists; reflexivity].
    assert (E : Qle_bool (tp_cur (tp_next (tp_next p0))) a = false).
    { apply not_true_iff_false. rewrite Qle_bool_iff. intros X. cbn in X. rewrite Et in X. unfold base_time in X. rewrite inject_Z_plus in X. lra. }
    rewrite E. eexists; reflexivity. }
  destruct Ex as [p E]. exists p. split; [exact E|]. destruct (skip_spec _ _ _ _ P0 E) as [A B]. split; [assumption|]. intros x. rewrite B. unfold on_stream, task_points, p0. cbn [tp_time tp_offset tp_period tp_first].
  assert (X : forall k, (kth time k (n_period t) == kth (base_time t a) k (n_period t))%Q) by (intros k; unfold kth; rewrite Et; reflexivity).
  assert (Y : forall k, (kth (base_off t s * -1 + time) (k + 0) (n_period t) == kth (base_time t a - base_off t s) k (n_period t))%Q) by (intros k; unfold kth; rewrite Nat.add_0_r, Et; ring).
  split.
  - intros [[k [H|H]] L]; (split; [assumption|]); exists k; [left; rewrite <- X|right; rewrite <- Y]; assumption.
  - intros [L [k [H|H]]]; (split; [|assumption]); exists k; [left; rewrite X|right; rewrite Y]; assumption.
Qed.

(** ** The points of the Python version *)
Lemma points_beyond_mem : forall fuel time T o b l, 0 < T -> (0 <= o)%Q -> points_beyond fuel time T o b = Some l ->
  forall x, (exists y, In y l /\ (y == x)%Q) <-> (x <= b)%Q /\ exists k : nat, (x == kth (inject_Z time) k T)%Q \/ (x == kth (inject_Z time - o) k T)%Q.
Proof.
  induction fuel as [|f IH]; intros time T o b l HT Ho H x; [discriminate|]. cbn [points_beyond] in H.
  assert (S1 : forall k, (kth (inject_Z time) (S k) T == kth (inject_Z (time + T)) k T)%Q) by (intros k; rewrite kth_S; unfold kth; rewrite inject_Z_plus; reflexivity).
  assert (S2 : forall k, (kth (inject_Z time - o) (S k) T == kth (inject_Z (time + T) - o) k T)%Q) by (intros k; rewrite kth_S; unfold kth; rewrite inject_Z_plus; ring).
  destruct (Qle_bool (inject_Z time - o) b) eqn:E.
  - apply Qle_bool_iff in E. destruct (points_beyond f (time + T) T o b) as [r|] eqn:Er; [|discriminate]. cbn [option_map] in H. injection H as <-.
    pose proof (IH _ _ _ _ _ HT Ho Er x) as R. split.
    + intros [y [[<-|Hy] Ey]].
      * split; [lra|]. exists 0%nat. right. rewrite kth_0. lra.
      * apply in_app_or in Hy. destruct Hy as [Hy|Hy].
        -- destruct (Qle_bool (inject_Z time) b) eqn:E2; [|destruct Hy]. apply Qle_bool_iff in E2. destruct Hy as [<-|[]]. split; [lra|]. exists 0%nat. left. rewrite kth_0. lra.
        -- destruct R as [R _]. destruct R as [R1 [k R2]]; [exists y; split; assumption|]. split; [assumption|]. exists (S k). rewrite S1, S2. assumption.
    + intros [Hb [k Hk]]. destruct k as [|k].
      * rewrite !kth_0 in Hk. destruct Hk as [Hk|Hk].
        -- assert (E2 : Qle_bool (inject_Z time) b = true) by (apply Qle_bool_iff; lra). exists (inject_Z time). split; [|lra]. right. apply in_or_app. left. rewrite E2. left. reflexivity.
        -- exists (inject_Z time - o)%Q. split; [left; reflexivity|lra].
      * rewrite S1, S2 in Hk. destruct R as [_ R]. destruct R as [y [Y1 Y2]]; [split; [assumption|]; exists k; assumption|]. exists y. split; [|assumption]. right. apply in_or_app. right. assumption.
  - apply qle_false in E. injection H as <-. split; [intros [y [[] _]]|]. intros [Hb [k Hk]].
    pose proof (kth_ge (inject_Z time) k T HT) as K1. pose proof (kth_ge (inject_Z time - o) k T HT) as K2. destruct Hk; lra.
Qed.

Lemma test_points_mem : forall fuel t s a b l, nb_ok t -> (0 < s)%Q -> (0 <= a)%Q -> test_points fuel (back t) s a b = Some l ->
  forall x, (exists y, In y l /\ (y == x)%Q) <-> (x <= b)%Q /\ task_points t s a x.
Proof.
  intros fuel t s a b l Ht Hs Ha H x. pose proof Ht as [T1 [T2 T3]]. destruct (base_off_spec t s Ht Hs) as [O1 O2]. destruct (floor_bounds a (n_period t) ltac:(lia)) as [F1 F2].
  unfold test_points in H. cbn [back t_period t_deadline t_cost] in H. cbv zeta in H. fold (base_off t s) in H.
  set (time := Qfloor (a / inject_Z (n_period t)) * n_period t + n_deadline t) in *.
  destruct (points_beyond fuel (time + n_period t) (n_period t) (base_off t s) b) as [r|] eqn:Er; [|discriminate]. cbn [option_map] in H. apply (f_equal (fun o => match o with Some v => v | None => [] end)) in H. cbv beta iota in H. subst l.
  assert (TP : 0 < n_period t) by lia. pose proof (points_beyond_mem _ _ _ _ _ _ TP O1 Er x) as R.
  unfold task_points. fold time. change (base_time t a) with (inject_Z time).
  assert (S1 : forall k, (kth (inject_Z time) (S k) (n_period t) == kth (inject_Z (time + n_period t)) k (n_period t))%Q) by (intros k; rewrite kth_S; unfold kth; rewrite inject_Z_plus; reflexivity).
  assert (S2 : forall k, (kth (inject_Z time - base_off t s) (S k) (n_period t) == kth (inject_Z (time + n_period t) - base_off t s) k (n_period t))%Q) by (intros k; rewrite kth_S; unfold kth; rewrite inject_Z_plus; ring).
  assert (Big : (a < inject_Z (time + n_period t) - base_off t s)%Q).
  { unfold time. rewrite !inject_Z_plus. assert (0 <= inject_Z (n_deadline t))%Q by lra. lra. }
  split.
  - intros [y [Hy Ey]]. apply in_app_or in Hy. destruct Hy as [Hy|Hy].
    + apply filter_In in Hy. destruct Hy as [Hy E]. apply andb_true_iff in E. destruct E as [E1 E2]. apply negb_true_iff, qle_false in E1. apply Qle_bool_iff in E2.
      split; [lra|]. split; [lra|]. exists 0%nat. rewrite !kth_0. destruct Hy as [<-|[<-|[]]]; [right|left]; lra.
    + destruct R as [R _]. destruct R as [R1 [k R2]]; [exists y; split; assumption|]. split; [assumption|]. split.
      * pose proof (kth_ge (inject_Z (time + n_period t)) k (n_period t) ltac:(lia)) as K1. pose proof (kth_ge (inject_Z (time + n_period t) - base_off t s) k (n_period t) ltac:(lia)) as K2. destruct R2; lra.
      * exists (S k). rewrite S1, S2. assumption.
  - intros [Hb [L [k Hk]]]. destruct k as [|k].
    + rewrite !kth_0 in Hk. destruct Hk as [Hk|Hk].
      * exists (inject_Z time). split; [|lra]. apply in_or_app. left. apply filter_In. split; [right; left; reflexivity|]. apply andb_true_iff. split; [apply negb_true_iff, not_true_iff_false; rewrite Qle_bool_iff; intros ?; lra|apply Qle_bool_iff; lra].
      * exists (inject_Z time - base_off t s)%Q. split; [|lra]. apply in_or_app. left. apply filter_In. split; [left; reflexivity|]. apply andb_true_iff. split; [apply negb_true_iff, not_true_iff_false; rewrite Qle_bool_iff; intros ?; lra|apply Qle_bool_iff; lra].
    + rewrite S1, S2 in Hk. destruct R as [_ R]. destruct R as [y [Y1 Y2]]; [split; [assumption|]; exists k; assumption|]. exists y. split; [|assumption]. apply in_or_app. right. assumption.
Qed.

Lemma testing_set_mem : forall fuel ts s a b l, Forall nb_ok ts -> (0 < s)%Q -> (0 <= a)%Q -> testing_set fuel (map back ts) s a b = Some l ->
  forall x, (exists y, In y l /\ (y == x)%Q) <-> (x <= b)%Q /\ exists t, In t ts /\ task_points t s a x.
Proof.
  intros fuel ts s a b l H Hs Ha E x. rewrite Forall_forall in H. split.
  - intros [y [Hy Ey]]. destruct (testing_set_in _ _ _ _ _ _ _ E Hy) as [t' [l0 [Ht [E0 I]]]]. apply in_map_iff in Ht. destruct Ht as [t [<- Ht]].
    destruct (proj1 (test_points_mem _ _ _ _ _ _ (H t Ht) Hs Ha E0 x) (ex_intro _ y (conj I Ey))) as [A B]. split; [assumption|]. exists t. split; assumption.
  - intros [Hb [t [Ht P]]]. destruct (testing_set_has _ _ _ _ _ _ (back t) E (in_map back _ _ Ht)) as [l0 [E0 S]].
    destruct (proj2 (test_points_mem _ _ _ _ _ _ (H t Ht) Hs Ha E0 x) (conj Hb P)) as [y [Y1 Y2]]. destruct (S y Y1) as [z [Z1 Z2]]. exists z. split; [assumption|]. rewrite <- Z2. assumption.
Qed.

(** ** The queue *)
Definition on_queue (q : list tpoint) (x : Q) : Prop := Exists (fun p => on_stream p x) q.

Lemma tq_top_spec : forall q t, Forall tp_ok q -> tq_top q = Some t -> In t (map tp_cur q) /\ forall x, on_queue q x -> (t <= x)%Q.
Proof.
  induction q as [|p q IH]; intros t H E; [discriminate|]. inversion H as [|? ? H1 H2]; subst. cbn [tq_top] in E. destruct (tq_top q) as [y|] eqn:Ey.
  - destruct (IH y H2 eq_refl) as [A B]. destruct (Qle_bool (tp_cur p) y) eqn:L; injection E as <-.
    + apply Qle_bool_iff in L. split; [left; reflexivity|]. intros x Hx. inversion Hx as [? ? X|? ? X]; subst; [apply os_ge; assumption|]. specialize (B x X). lra.
    + apply qle_false in L. split; [right; assumption|]. intros x Hx. inversion Hx as [? ? X|? ? X]; subst; [pose proof (os_ge p x H1 X); lra|apply B; assumption].
  - destruct q; [|cbn in Ey; destruct (tq_top q); discriminate]. injection E as <-. split; [left; reflexivity|]. intros x Hx. inversion Hx as [? ? X|? ? X]; subst; [apply os_ge; assumption|inversion X].
Qed.

Lemma tq_bump_ok : forall x q, Forall tp_ok q -> Forall tp_ok (tq_bump x q).
Proof.
  induction q as [|p q IH]; intros H; [constructor|]. inversion H; subst. cbn [tq_bump]. destruct (Qeq_bool (tp_cur p) x); constructor; try assumption; [apply ok_next; assumption|apply IH; assumption].
Qed.

Lemma tq_bump_mem : forall t q, In t (map tp_cur q) -> forall x, on_queue q x <-> (x == t)%Q \/ on_queue (tq_bump t q) x.
Proof.
  induction q as [|p q IH]; intros H x; [destruct H|]. unfold on_queue. cbn [tq_bump]. destruct (Qeq_bool (tp_cur p) t) eqn:E.
  - apply Qeq_bool_iff in E. rewrite !Exists_cons, (os_unfold p x), E. tauto.
  - destruct H as [H|H]; [rewrite H in E; apply Qeq_bool_neq in E; exfalso; apply E; reflexivity|].
    rewrite !Exists_cons. specialize (IH H x). unfold on_queue in IH. tauto.
Qed.

Lemma cur_on_queue : forall t q, In t (map tp_cur q) -> on_queue q t.
Proof. intros t q H. rewrite tq_bump_mem by exact H. left. reflexivity. Qed.

Lemma tq_next_spec : forall fuel q last t q', Forall tp_ok q -> tq_next fuel q last = Some (t, q') ->
  Forall tp_ok q' /\ ~ (t == last)%Q /\ on_queue q t /\ (forall x, on_queue q x -> (x == last)%Q \/ (t <= x)%Q) /\
  (forall x, on_queue q x -> (x == last)%Q \/ (x == t)%Q \/ on_queue q' x) /\ (forall x, on_queue q' x -> on_queue q x).
Proof.
  induction fuel as [|f IH]; intros q last t q' H E; [discriminate|]. cbn [tq_next] in E. destruct (tq_top q) as [y|] eqn:Ey; [|discriminate].
  destruct (tq_top_spec q y H Ey) as [A B]. pose proof (tq_bump_mem y q A) as M. pose proof (tq_bump_ok y q H) as O. destruct (Qeq_bool y last) eqn:L.
  - apply Qeq_bool_iff in L. destruct (IH _ _ _ _ O E) as [I1 [I2 [I3 [I4 [I5 I6]]]]]. split; [assumption|]. split; [assumption|]. split; [apply M; right; assumption|].
    split; [|split].
    + intros x Hx. apply M in Hx. destruct Hx as [Hx|Hx]; [left; rewrite Hx; assumption|apply I4; assumption].
    + intros x Hx. apply M in Hx. destruct Hx as [Hx|Hx]; [left; rewrite Hx; assumption|apply I5; assumption].
    + intros x Hx. apply M. right. apply I6. assumption.
  - apply Qeq_bool_neq in L. injection E as <- <-. split; [assumption|]. split; [assumption|]. split; [apply cur_on_queue; assumption|]. split; [|split].
    + intros x Hx. right. apply B. assumption.
    + intros x Hx. apply M in Hx. tauto.
    + intros x Hx. apply M. right. assumption.
Qed.

Lemma nf_scan_spec : forall fuel qf m ts s b q last t r, Forall nb_ok ts -> (0 < s)%Q -> Forall tp_ok q -> (forall x, on_queue q x -> (0 < x)%Q) ->
  (forall x, on_queue q x -> (x == last)%Q -> witness_condition m (map back ts) x s = true) ->
  nf_scan fuel qf m ts s b q last = Some (t, r) ->
  if r then forall x, on_queue q x -> (x <= b)%Q -> witness_condition m (map back ts) x s = true
  else on_queue q t /\ (t <= b)%Q /\ witness_condition m (map back ts) t s = false /\ forall x, on_queue q x -> witness_condition m (map back ts) x s = false -> (t <= x)%Q.
Proof.
  induction fuel as [|f IH]; intros qf m ts s b q last t r Hn Hs Hq Hpos Hl H; [discriminate|]. cbn [nf_scan] in H.
  destruct (tq_next qf q last) as [[y q']|] eqn:E; [|discriminate]. destruct (tq_next_spec _ _ _ _ _ Hq E) as [N1 [N2 [N3 [N4 [N5 N6]]]]].
  assert (Y0 : (0 < y)%Q) by (apply Hpos; assumption).
  destruct (Qle_bool y b) eqn:L.
  - apply Qle_bool_iff in L. rewrite (n_witness_eq m ts y s Hn ltac:(lra) Hs) in H. destruct (witness_condition m (map back ts) y s) eqn:W.
    + assert (Hl' : forall x, on_queue q' x -> (x == y)%Q -> witness_condition m (map back ts) x s = true).
      { intros x _ Ex. rewrite <- W. apply witness_congr; [apply Permutation_refl|assumption|reflexivity]. }
      specialize (IH qf m ts s b q' y t r Hn Hs N1 (fun x X => Hpos x (N6 x X)) Hl' H). destruct r.
      * intros x Hx Hb. destruct (N5 x Hx) as [X|[X|X]]; [apply Hl; assumption| |apply IH; assumption].
        rewrite <- W. apply witness_congr; [apply Permutation_refl|assumption|reflexivity].
      * destruct IH as [I1 [I2 [I3 I4]]]. split; [apply N6; assumption|]. split; [assumption|]. split; [assumption|]. intros x Hx Wx.
        destruct (N5 x Hx) as [X|[X|X]]; [rewrite (Hl x Hx X) in Wx; discriminate| |apply I4; assumption].
        rewrite (witness_congr m (map back ts) (map back ts) x y s s (Permutation_refl _) X (Qeq_refl s)) in Wx. congruence.
    + injection H as <- <-. split; [assumption|]. split; [assumption|]. split; [assumption|]. intros x Hx Wx. destruct (N4 x Hx) as [X|X]; [rewrite (Hl x Hx X) in Wx; discriminate|assumption].
  - apply qle_false in L. injection H as <- <-. intros x Hx Hb. destruct (N4 x Hx) as [X|X]; [apply Hl; assumption|lra].
Qed.

Lemma tq_init_spec : forall ts s a, Forall nb_ok ts -> (0 < s)%Q -> (0 <= a)%Q -> exists q, tq_init ts s a = Some q /\ Forall tp_ok q /\ length q = length ts /\
  forall x, on_queue q x <-> exists t, In t ts /\ task_points t s a x.
Proof.
  intros ts s a H Hs Ha. unfold tq_init. induction H as [|t ts Ht _ IH]; cbn [map sequence].
  - exists []. split; [reflexivity|]. split; [constructor|]. split; [reflexivity|]. intros x. split; [intros X; inversion X|intros [t [[] _]]].
  - destruct IH as [q [E [Q1 [Q2 Q3]]]]. destruct (tp_init_spec t s a Ht Hs Ha) as [p [Ep [P1 P2]]]. rewrite E, Ep. exists (p :: q). split; [reflexivity|]. split; [constructor; assumption|].
    split; [cbn; congruence|]. intros x. unfold on_queue. rewrite Exists_cons, P2. fold (on_queue q x). rewrite Q3. split.
    + intros [X|[t' [X Y]]]; [exists t; split; [left; reflexivity|assumption]|exists t'; split; [right; assumption|assumption]].
    + intros [t' [[<-|X] Y]]; [left; assumption|right; exists t'; split; assumption].
Qed.

(** ** Agreement *)
Lemma nf_sigma_next : forall fuel fuel' m ts d step sb sb' t t' n sn s s' x, Forall nb_ok ts -> (0 < step)%Q -> (0 < d)%Q -> (0 <= t)%Q ->
  (sb == sb')%Q -> (t == t')%Q -> (sn == sigma_at d step (S n))%Q ->
  nf_sigma fuel m ts step sb t sn = Some (s, s') -> next_sigma fuel' m (map back ts) d step sb' t' n = Some x ->
  match x with
  | None => (sb < s)%Q
  | Some n' => (s == sigma_at d step n')%Q /\ (s' == sigma_at d step (S n'))%Q
  end.
Proof.
  induction fuel as [|f IH]; intros fuel' m ts d step sb sb' t t' n sn s s' x Hn Hst Hd Ht Esb Et Esn H H'; [discriminate|]. destruct fuel' as [|f']; [discriminate|].
  cbn [nf_sigma next_sigma] in *. pose proof (sigma_mono d step 0 (S n) Hst ltac:(lia)) as M. change (sigma_at d step 0) with d in M.
  assert (E1 : Qle_bool d (sigma_at d step (S n)) = true) by (apply Qle_bool_iff; assumption). rewrite E1 in H'. cbn [andb] in H'.
  assert (S0 : (0 < sn)%Q) by lra.
  rewrite (n_witness_eq m ts t sn Hn Ht S0) in H. rewrite (witness_congr m _ _ t t' sn _ (Permutation_refl _) Et Esn) in H. rewrite (Qle_bool_congr _ _ _ _ Esn Esb) in H.
  assert (Nx : (sn + step == sigma_at d step (S (S n)))%Q).
  { rewrite Esn. cbn [sigma_at]. rewrite (Nat2Z.inj_succ (S n)), <- Z.add_1_r, inject_Z_plus. change (inject_Z 1) with 1%Q. ring. }
  destruct (Qle_bool (sigma_at d step (S n)) sb') eqn:B.
  - destruct (witness_condition m (map back ts) t' (sigma_at d step (S n))) eqn:W; cbn [andb negb] in *.
    + injection H as <- <-. injection H' as <-. split; assumption.
    + exact (IH f' m ts d step sb sb' t t' (S n) _ s s' x Hn Hst Hd Ht Esb Et Nx H H').
  - cbn [andb] in *. injection H as <- <-. injection H' as <-. apply qle_false in B. lra.
Qed.

Lemma nf_loop_agree : forall fuel fuel' sf qf pf m ts d step sb sb' tb tb' n sc sn a a' r r', Forall nb_ok ts -> (0 < step)%Q -> (0 < d)%Q -> (0 <= a)%Q -> (a <= tb)%Q ->
  (sb == sb')%Q -> (tb == tb')%Q -> (a == a')%Q -> (sc == sigma_at d step n)%Q -> (sn == sigma_at d step (S n))%Q ->
  nf_loop fuel sf qf m ts step sb tb sc sn a = Some r -> ffdbf_loop fuel' pf m (map back ts) d step sb' tb' n a' = Some r' -> r = r'.
Proof.
  induction fuel as [|f IH]; intros fuel' sf qf pf m ts d step sb sb' tb tb' n sc sn a a' r r' Hn Hst Hd A0 At Esb Etb Ea Esc Esn H H'; [discriminate|].
  destruct fuel' as [|f']; [discriminate|]. cbn [nf_loop ffdbf_loop] in *.
  pose proof (sigma_mono d step 0 n Hst ltac:(lia)) as M. change (sigma_at d step 0) with d in M.
  assert (E1 : Qle_bool d (sigma_at d step n) = true) by (apply Qle_bool_iff; assumption). rewrite E1 in H'.
  assert (E2 : Qle_bool a tb = true) by (apply Qle_bool_iff; assumption). rewrite E2, andb_true_r, (Qle_bool_congr _ _ _ _ Esc Esb) in H. cbn [andb] in H'.
  destruct (Qle_bool (sigma_at d step n) sb') eqn:B; cbn [negb] in *; [|congruence].
  assert (E3 : Qeq_bool sc 0 = false) by (apply not_true_iff_false; rewrite Qeq_bool_iff; lra). rewrite E3 in H.
  assert (E4 : Qeq_bool (sigma_at d step n) 0 = false) by (apply not_true_iff_false; rewrite Qeq_bool_iff; lra). rewrite E4 in H'.
  assert (S0 : (0 < sc)%Q) by lra. assert (S0' : (0 < sigma_at d step n)%Q) by lra. assert (A0' : (0 <= a')%Q) by lra.
  destruct (tq_init_spec ts sc a Hn S0 A0) as [q [Eq [Q1 [_ Q2]]]]. rewrite Eq in H.
  destruct (nf_scan sf qf m ts sc tb q (-1)) as [[t r0]|] eqn:Sc; [|discriminate].
  assert (Qpos : forall x, on_queue q x -> (0 < x)%Q) by (intros x Hx; apply Q2 in Hx; destruct Hx as [u [_ [X _]]]; lra).
  assert (Ql : forall x, on_queue q x -> (x == -1)%Q -> witness_condition m (map back ts) x sc = true) by (intros x Hx X; specialize (Qpos x Hx); lra).
  pose proof (nf_scan_spec _ _ _ _ _ _ _ _ _ _ Hn S0 Q1 Qpos Ql Sc) as SP.
  destruct (testing_set pf (map back ts) (sigma_at d step n) a' tb') as [l|] eqn:T; [|discriminate].
  assert (Ok : Forall ok_task (map back ts)).
  { rewrite Forall_map. eapply Forall_impl; [|exact Hn]. intros u [U1 [U2 U3]]. unfold ok_task, back. cbn. lia. }
  destruct (testing_set_spec _ _ _ _ _ _ Ok S0' A0' T) as [Sl [Bl _]].
  pose proof (testing_set_mem _ _ _ _ _ _ Hn S0' A0' T) as Mem.
  (* the two sets of points *)
  assert (Pc : forall u x, task_points u sc a x <-> task_points u (sigma_at d step n) a' x).
  { intros u x. unfold task_points. assert (F1 : (base_time u a == base_time u a')%Q) by (unfold base_time; assert (F : Qfloor (a / inject_Z (n_period u)) = Qfloor (a' / inject_Z (n_period u))) by (apply Qfloor_comp; rewrite Ea; reflexivity); rewrite F; reflexivity).
    assert (F2 : (base_off u sc == base_off u (sigma_at d step n))%Q) by (unfold base_off; apply min_q_congr; [rewrite Esc|]; reflexivity).
    assert (G1 : forall k, (kth (base_time u a) k (n_period u) == kth (base_time u a') k (n_period u))%Q) by (intros k; unfold kth; rewrite F1; reflexivity).
    assert (G2 : forall k, (kth (base_time u a - base_off u sc) k (n_period u) == kth (base_time u a' - base_off u (sigma_at d step n)) k (n_period u))%Q) by (intros k; unfold kth; rewrite F1, F2; reflexivity).
    split; intros [L [k [X|X]]]; (split; [lra|]); exists k; [left; rewrite <- G1|right; rewrite <- G2|left; rewrite G1|right; rewrite G2]; assumption. }
  assert (Mq : forall x, (on_queue q x /\ (x <= tb)%Q) <-> exists y, In y l /\ (y == x)%Q).
  { intros x. rewrite Mem, Q2. split.
    - intros [[u [U1 U2]] L]. split; [lra|]. exists u. split; [assumption|apply Pc; assumption].
    - intros [L [u [U1 U2]]]. split; [exists u; split; [assumption|apply Pc; assumption]|lra]. }
  assert (Wc : forall x y, (x == y)%Q -> witness_condition m (map back ts) x sc = witness_condition m (map back ts) y (sigma_at d step n)) by (intros x y X; apply witness_congr; [apply Permutation_refl|assumption|assumption]).
  destruct r0.
  - injection H as <-. destruct (first_failure m (map back ts) (sigma_at d step n) l) as [t'|] eqn:F; [|congruence].
    destruct (first_failure_some _ _ _ _ _ Sl F) as [I1 [I2 _]]. exfalso.
    destruct (proj2 (Mq t')) as [X1 X2]; [exists t'; split; [assumption|reflexivity]|]. specialize (SP t' X1 X2). rewrite (Wc t' t' (Qeq_refl t')) in SP. congruence.
  - destruct SP as [P1 [P2 [P3 P4]]]. destruct (first_failure m (map back ts) (sigma_at d step n) l) as [t'|] eqn:F.
    + destruct (first_failure_some _ _ _ _ _ Sl F) as [I1 [I2 I3]].
      assert (Et : (t == t')%Q).
      { apply Qle_antisym.
        - destruct (proj2 (Mq t')) as [X1 X2]; [exists t'; split; [assumption|reflexivity]|]. apply P4; [assumption|]. rewrite (Wc t' t' (Qeq_refl t')). assumption.
        - destruct (proj1 (Mq t) (conj P1 P2)) as [y [Y1 Y2]]. rewrite <- Y2. apply I3; [assumption|]. rewrite <- (Wc t y (Qeq_sym _ _ Y2)). assumption. }
      assert (T0 : (0 < t)%Q) by (apply Qpos; assumption).
      destruct (nf_sigma f m ts step sb t sn) as [[s s']|] eqn:N1; [|discriminate]. destruct (next_sigma f' m (map back ts) d step sb' t' n) as [x|] eqn:N2; [|discriminate].
      assert (T0' : (0 <= t)%Q) by lra.
      pose proof (nf_sigma_next _ _ _ _ _ _ _ _ _ _ _ _ _ _ _ Hn Hst Hd T0' Esb Et Esn N1 N2) as X. destruct x as [n'|].
      * destruct X as [X1 X2]. exact (IH _ _ _ _ _ _ _ _ _ _ _ _ _ _ _ _ _ _ _ Hn Hst Hd T0' P2 Esb Etb Et X1 X2 H H').
      * injection H' as <-. destruct f as [|f0]; [discriminate|]. cbn [nf_loop] in H. assert (E : Qle_bool s sb = false) by (apply not_true_iff_false; rewrite Qle_bool_iff; lra).
        rewrite E in H. cbn [andb negb] in H. congruence.
    + exfalso. destruct (proj1 (Mq t) (conj P1 P2)) as [y [Y1 Y2]]. pose proof (first_failure_none _ _ _ _ F y Y1) as X. rewrite <- (Wc t y (Qeq_sym _ _ Y2)) in X. congruence.
Qed.

Lemma qmax_fold : forall l a, (a <= fold_left (fun m t => qmax m (n_density t)) l a)%Q /\ (forall t, In t l -> (n_density t <= fold_left (fun m t => qmax m (n_density t)) l a)%Q) /\
  (fold_left (fun m t => qmax m (n_density t)) l a = a \/ exists t, In t l /\ fold_left (fun m t => qmax m (n_density t)) l a = n_density t).
Proof.
  induction l as [|u l IH]; intros a; cbn [fold_left].
  - split; [apply Qle_refl|]. split; [intros t []|left; reflexivity].
  - destruct (IH (qmax a (n_density u))) as [A [B C]].
    assert (M : (a <= qmax a (n_density u))%Q /\ (n_density u <= qmax a (n_density u))%Q /\ (qmax a (n_density u) = a \/ qmax a (n_density u) = n_density u)).
    { unfold qmax. destruct (Qle_bool (n_density u) a) eqn:E; cbn [negb].
      - apply Qle_bool_iff in E. split; [lra|]. split; [lra|left; reflexivity].
      - apply qle_false in E. split; [lra|]. split; [lra|right; reflexivity]. }
    destruct M as [M1 [M2 M3]]. split; [lra|]. split.
    + intros t [<-|Ht]; [lra|apply B; assumption].
    + destruct C as [C|[t [C1 C2]]]; [|right; exists t; split; [right; assumption|assumption]]. rewrite C. destruct M3 as [M3|M3]; [left; assumption|right; exists u; split; [left; reflexivity|assumption]].
Qed.

Lemma n_density_back : forall t, nb_ok t -> (n_density t == density (back t))%Q /\ (0 < n_density t)%Q.
Proof.
  intros t [T1 [T2 T3]]. unfold n_density, frac, density, zdivq, back; cbn [t_cost t_period t_deadline]. rewrite Z.min_r by lia. split; [reflexivity|].
  apply Qlt_shift_div_l; [apply zq_pos; lia|]. rewrite Qmult_0_l. apply zq_pos. lia.
Qed.

Lemma max_density_back : forall t ts, Forall nb_ok (t :: ts) -> (ns_max_density (t :: ts) == max_density (back t) (map back ts))%Q /\ (0 < ns_max_density (t :: ts))%Q.
Proof.
  intros t ts H. unfold ns_max_density, max_density. destruct (qmax_fold (t :: ts) 0) as [A [B C]]. destruct (max_list_spec (map density (map back ts)) (density (back t))) as [A' [B' C']].
  rewrite Forall_forall in H. set (x := fold_left (fun m t => qmax m (n_density t)) (t :: ts) 0%Q) in *.
  assert (X0 : (0 < x)%Q). { destruct (n_density_back t (H t (or_introl eq_refl))) as [_ D]. specialize (B t (or_introl eq_refl)). lra. }
  split; [|assumption]. apply Qle_antisym.
  - destruct C as [C|[u [C1 C2]]]; [rewrite C in X0; lra|]. rewrite C2. destruct (n_density_back u (H u C1)) as [-> _]. destruct C1 as [<-|C1]; [exact A'|]. apply B'. rewrite map_map. apply in_map_iff. exists u. split; [reflexivity|assumption].
  - destruct C' as [C'|C'].
    + rewrite C'. destruct (n_density_back t (H t (or_introl eq_refl))) as [<- _]. apply B. left. reflexivity.
    + rewrite map_map in *. apply in_map_iff in C'. destruct C' as [u [C1 C2]]. rewrite <- C1. destruct (n_density_back u (H u (or_intror C2))) as [<- _]. apply B. right. assumption.
Qed.

Lemma wcet_sum_back : forall ts, (fold_left (fun x t => x + inject_Z (n_wcet t)) ts 0 == inject_Z (zsum (map t_cost (map back ts))))%Q.
Proof.
  intros ts. rewrite fold_qsum, map_map. cbn [back t_cost]. rewrite Qplus_0_l. induction ts as [|t ts IH]; [reflexivity|]. cbn [map qsum fold_right zsum]. unfold qsum, zsum in *. rewrite inject_Z_plus, <- IH. reflexivity.
Qed.

Lemma min_q_comm : forall a b, (min_q a b == min_q b a)%Q.
Proof.
  intros a b. destruct (min_q_spec a b) as [A [B C]]. destruct (min_q_spec b a) as [A' [B' C']]. destruct C as [C|C]; destruct C' as [C'|C']; rewrite C, C' in *; lra.
Qed.

Lemma n_ffdbf_agree : forall fuel sf qf fuel' pf ed g m ts b b', ts <> [] -> Forall nb_ok ts ->
  n_ffdbf fuel sf qf ed g m ts false = Some b -> ffdbf_test fuel' pf (1 # ed) g m (map back ts) = Some b' -> b = b'.
Proof.
  intros fuel sf qf fuel' pf ed g m ts b b' Hne Hn H H'. destruct ts as [|t ts]; [contradiction|]. unfold n_ffdbf, ffdbf_test in *. cbn [andb] in H. cbn [map] in H'.
  destruct (Z.ltb_spec m 2) as [|Hm]; [congruence|].
  destruct (max_density_back t ts Hn) as [D1 D2].
  assert (Et : (fold_left (fun x t => x + inject_Z (n_wcet t)) (t :: ts) 0 / (1 # ed) == inject_Z (zsum (map t_cost (map back (t :: ts)))) / (1 # ed))%Q) by (rewrite wcet_sum_back; reflexivity).
  assert (C0 : (0 <= fold_left (fun x t => x + inject_Z (n_wcet t)) (t :: ts) 0 / (1 # ed))%Q).
  { apply div_nonneg; [|reflexivity]. rewrite wcet_sum_back. apply zq_nonneg. apply zsum_nonneg. intros x Hx. rewrite map_map in Hx. apply in_map_iff in Hx. destruct Hx as [u [<- Hu]]. rewrite Forall_forall in Hn. destruct (Hn u Hu) as [U1 _]. cbn. lia. }
  refine (nf_loop_agree _ _ _ _ _ _ _ _ _ _ _ _ _ 0 _ _ _ _ _ _ Hn _ _ (Qle_refl 0) C0 _ Et (Qeq_refl 0) _ _ H H').
  - reflexivity.
  - lra.
  - rewrite min_q_comm. apply min_q_congr; [reflexivity|]. rewrite (ns_util_back (t :: ts) Hn). cbn [map]. rewrite inject_Z_opp.
    assert (P : (0 < inject_Z (m - 1))%Q) by (apply zq_pos; lia). field. lra.
  - cbn [sigma_at]. assumption.
  - cbn [sigma_at]. change (inject_Z (Z.of_nat 1)) with 1%Q.
    rewrite q_trunc_floor by (apply div_nonneg; [lra|reflexivity]).
    assert (F : Qfloor (ns_max_density (t :: ts) / (1 # g)) = Qfloor (max_density (back t) (map back ts) / (1 # g))) by (apply Qfloor_comp; rewrite D1; reflexivity).
    rewrite F. ring.
Qed.

(** ** Termination *)
(** the number of points up to [b] that an iterator still has *)
Definition tm (b : Q) (p : tpoint) : nat :=
  Z.to_nat (2 * (Qfloor ((b - tp_offset p) / inject_Z (tp_period p)) + 1) - (if tp_first p then 0 else 1)).
Definition qm (b : Q) (q : list tpoint) : nat := list_sum (map (tm b) q).

Lemma tm_next : forall b p, tp_ok p -> (tp_cur p <= b)%Q -> tm b p = S (tm b (tp_next p)).
Proof.
  intros b [time off T first] [H1 [H2 H3]] H. unfold tm, tp_next, tp_cur in *. cbn [tp_time tp_offset tp_period tp_first] in *.
  assert (P : (0 < inject_Z T)%Q) by (apply zq_pos; assumption).
  assert (L : (off <= b)%Q) by (destruct first; lra).
  assert (F : 0 <= Qfloor ((b - off) / inject_Z T)) by (change 0 with (Qfloor 0); apply Qfloor_resp_le; apply div_nonneg; lra).
  destruct first; cbn [tp_time tp_offset tp_period tp_first]; [lia|].
  assert (E : Qfloor ((b - (off + inject_Z T)) / inject_Z T) = Qfloor ((b - off) / inject_Z T) - 1).
  { assert (X : ((b - (off + inject_Z T)) / inject_Z T == (b - off) / inject_Z T - inject_Z 1)%Q) by (field; lra). rewrite X.
    set (z := ((b - off) / inject_Z T)%Q). pose proof (Qfloor_le z) as A. pose proof (Qlt_floor z) as B. pose proof (Qfloor_le (z - inject_Z 1)) as A'. pose proof (Qlt_floor (z - inject_Z 1)) as B'.
    rewrite inject_Z_plus in B, B'. change (inject_Z 1) with 1%Q in *.
    assert (X1 : (inject_Z (Qfloor (z - 1)) < inject_Z (Qfloor z))%Q) by lra. rewrite <- Zlt_Qlt in X1.
    assert (X2 : (inject_Z (Qfloor z) < inject_Z (Qfloor (z - 1) + 2))%Q) by (rewrite inject_Z_plus; change (inject_Z 2) with 2%Q; lra). rewrite <- Zlt_Qlt in X2. lia. }
  rewrite E. lia.
Qed.

Lemma qm_bump : forall b t q, Forall tp_ok q -> In t (map tp_cur q) -> (t <= b)%Q -> qm b q = S (qm b (tq_bump t q)).
Proof.
  intros b t. induction q as [|p q IH]; intros Hq H Hb; [destruct H|]. inversion Hq as [|? ? Hp Hr]; subst. cbn [tq_bump]. destruct (Qeq_bool (tp_cur p) t) eqn:E.
  - apply Qeq_bool_iff in E. unfold qm. cbn [map list_sum fold_right]. rewrite (tm_next b p Hp) by lra. reflexivity.
  - destruct H as [H|H]; [rewrite H in E; apply Qeq_bool_neq in E; exfalso; apply E; reflexivity|]. specialize (IH Hr H Hb). unfold qm in *. cbn [map list_sum fold_right]. unfold list_sum in IH. lia.
Qed.

Lemma bump_nil : forall t q, q <> [] -> tq_bump t q <> [].
Proof. intros t [|p q] H; [contradiction|]. cbn [tq_bump]. destruct (Qeq_bool _ _); discriminate. Qed.

Lemma tq_next_total : forall b fuel q last, Forall tp_ok q -> q <> [] -> (last <= b)%Q -> (qm b q < fuel)%nat ->
  exists t q', tq_next fuel q last = Some (t, q') /\ q' <> [] /\ ((t <= b)%Q -> (qm b q' < qm b q)%nat).
Proof.
  intros b. induction fuel as [|f IH]; intros q last Hq Hne Hl Hf; [lia|]. cbn [tq_next].
  destruct (tq_top q) as [y|] eqn:Ey; [|destruct q as [|p q]; [contradiction|cbn in Ey; destruct (tq_top q); discriminate]].
  destruct (tq_top_spec q y Hq Ey) as [A B]. destruct (Qeq_bool y last) eqn:E.
  - apply Qeq_bool_iff in E. assert (Yb : (y <= b)%Q) by lra. pose proof (qm_bump b y q Hq A Yb) as M.
    destruct (IH (tq_bump y q) last (tq_bump_ok y q Hq) (bump_nil y q Hne) Hl ltac:(lia)) as [t [q' [I1 [I2 I3]]]]. exists t, q'. split; [assumption|]. split; [assumption|]. intros X. specialize (I3 X). lia.
  - exists y, (tq_bump y q). split; [reflexivity|]. split; [apply bump_nil; assumption|]. intros X. rewrite (qm_bump b y q Hq A X). lia.
Qed.

Lemma nf_scan_total : forall b m ts s qf fuel q last, Forall tp_ok q -> q <> [] -> (last <= b)%Q -> (qm b q < fuel)%nat -> (qm b q < qf)%nat -> nf_scan fuel qf m ts s b q last <> None.
Proof.
  intros b m ts s qf. induction fuel as [|f IH]; intros q last Hq Hne Hl Hf Hqf; [lia|]. cbn [nf_scan].
  destruct (tq_next_total b qf q last Hq Hne Hl Hqf) as [t [q' [E [N D]]]]. rewrite E. destruct (Qle_bool t b) eqn:L; [|discriminate]. apply Qle_bool_iff in L. specialize (D L).
  destruct (n_witness m ts (compute_q_r ts t) t s); [|discriminate]. apply IH; [eapply tq_next_spec; eassumption|assumption|assumption|lia|lia].
Qed.

Lemma skip_offset : forall fuel a p p', tp_ok p -> (0 <= tp_offset p)%Q -> tp_skip fuel a p = Some p' -> (0 <= tp_offset p')%Q.
Proof.
  induction fuel as [|f IH]; intros a p p' Hp H E; [discriminate|]. cbn [tp_skip] in E. destruct (Qle_bool (tp_cur p) a); [|injection E as <-; assumption].
  apply (IH _ _ _ (ok_next p Hp)) in E; [assumption|]. unfold tp_next. destruct (tp_first p); cbn [tp_offset]; [assumption|]. destruct Hp as [X _]. pose proof (zq_pos _ X). lra.
Qed.

Lemma tm_bound : forall b p, tp_ok p -> (0 <= tp_offset p)%Q -> (tm b p <= 2 * (Z.to_nat (Qceiling b) + 1))%nat.
Proof.
  intros b [time off T first] [H1 [H2 H3]] H. unfold tm. cbn [tp_time tp_offset tp_period tp_first] in *.
  pose proof (Qle_ceiling b) as C. assert (P : (1 <= inject_Z T)%Q) by (change 1%Q with (inject_Z 1); rewrite <- Zle_Qle; lia).
  assert (X : Qfloor ((b - off) / inject_Z T) <= Z.max 0 (Qceiling b)).
  { destruct (Z.le_gt_cases (Qfloor ((b - off) / inject_Z T)) 0) as [|L]; [lia|].
    assert (Y : ((b - off) / inject_Z T <= b)%Q).
    { pose proof (Qfloor_le ((b - off) / inject_Z T)) as F. assert (Z0 : (0 < inject_Z (Qfloor ((b - off) / inject_Z T)))%Q) by (apply zq_pos; lia).
      assert (Z1 : (0 < (b - off) / inject_Z T)%Q) by lra.
      apply Qle_trans with ((b - off) / inject_Z T * inject_Z T)%Q.
      - rewrite <- (Qmult_1_r ((b - off) / inject_Z T)) at 1. apply Qmult_le_l; assumption.
      - setoid_replace ((b - off) / inject_Z T * inject_Z T)%Q with (b - off)%Q by (field; lra). lra. }
    pose proof (Qfloor_le ((b - off) / inject_Z T)) as F. assert (G : (inject_Z (Qfloor ((b - off) / inject_Z T)) <= inject_Z (Qceiling b))%Q) by lra. rewrite <- Zle_Qle in G. lia. }
  destruct first; lia.
Qed.

Lemma tq_init_total : forall ts s a b, Forall nb_ok ts -> (0 < s)%Q -> (0 <= a)%Q -> ts <> [] ->
  exists q, tq_init ts s a = Some q /\ Forall tp_ok q /\ q <> [] /\ (qm b q <= length ts * (2 * (Z.to_nat (Qceiling b) + 1)))%nat.
Proof.
  intros ts s a b Hn Hs Ha Hne.
  enough (X : exists q, tq_init ts s a = Some q /\ Forall tp_ok q /\ length q = length ts /\ (qm b q <= length ts * (2 * (Z.to_nat (Qceiling b) + 1)))%nat).
  { destruct X as [q [A [B [C D]]]]. exists q. split; [assumption|]. split; [assumption|]. split; [|assumption]. intros ->. destruct ts; [contradiction|discriminate]. }
  unfold tq_init. clear Hne. induction Hn as [|t ts Ht _ IH]; cbn [map sequence].
  - exists []. repeat split; constructor.
  - destruct IH as [q [E [Q1 [Q2 Q3]]]]. destruct (tp_init_spec t s a Ht Hs Ha) as [p [Ep [P1 _]]]. rewrite E, Ep. exists (p :: q). split; [reflexivity|]. split; [constructor; assumption|]. split; [cbn; congruence|].
    assert (O : (0 <= tp_offset p)%Q).
    { destruct (base_off_spec t s Ht Hs) as [O1 O2]. pose proof Ht as [T1 [T2 T3]]. unfold tp_init in Ep. cbv zeta in Ep. fold (min_q (inject_Z (n_wcet t) / s) (inject_Z (n_deadline t))) in Ep. fold (base_off t s) in Ep.
      assert (F : 0 <= q_trunc (a / inject_Z (n_period t))) by (rewrite q_trunc_floor by (apply div_nonneg; [assumption|apply zq_pos; lia]); change 0 with (Qfloor 0); apply Qfloor_resp_le; apply div_nonneg; [assumption|apply zq_pos; lia]).
      assert (F2 : (0 <= inject_Z (q_trunc (a / inject_Z (n_period t))) * inject_Z (n_period t))%Q) by (rewrite <- inject_Z_mult; apply zq_nonneg; nia).
      assert (DT : (inject_Z (n_deadline t) <= inject_Z (n_period t))%Q) by (rewrite <- Zle_Qle; lia).
      apply (skip_offset _ _ _ _) in Ep; [assumption| |]; unfold tp_ok; cbn [tp_period tp_offset tp_time]; [|lra]. split; [lia|]. split; lra. }
    pose proof (tm_bound b p P1 O) as TB. unfold qm in *. cbn [map length]. change (list_sum (tm b p :: map (tm b) q)) with (tm b p + list_sum (map (tm b) q))%nat. nia.
Qed.

Lemma nf_sigma_total : forall K m ts d step sb t, (forall n, (K <= n)%nat -> (sb < sigma_at d step n)%Q) ->
  forall fuel n sn, (K <= fuel + n)%nat -> (1 <= fuel)%nat -> (sn == sigma_at d step (S n))%Q ->
  exists n' s s', nf_sigma fuel m ts step sb t sn = Some (s, s') /\ (n < n')%nat /\ (s == sigma_at d step n')%Q /\ (s' == sigma_at d step (S n'))%Q.
Proof.
  intros K m ts d step sb t HK. induction fuel as [|f IH]; intros n sn Hn Hf Es; [lia|]. cbn [nf_sigma].
  assert (Nx : (sn + step == sigma_at d step (S (S n)))%Q).
  { rewrite Es. cbn [sigma_at]. rewrite (Nat2Z.inj_succ (S n)), <- Z.add_1_r, inject_Z_plus. change (inject_Z 1) with 1%Q. ring. }
  destruct (Qle_bool sn sb && negb (n_witness m ts (compute_q_r ts t) t sn)) eqn:E.
  - apply andb_true_iff in E. destruct E as [E _]. apply Qle_bool_iff in E. destruct (Nat.le_gt_cases K (S n)) as [L|L]; [specialize (HK _ L); lra|].
    destruct (IH (S n) (sn + step)%Q ltac:(lia) ltac:(lia) Nx) as [n' [s [s' [A [B C]]]]]. exists n', s, s'. split; [assumption|]. split; [lia|assumption].
  - exists (S n), sn, (sn + step)%Q. split; [reflexivity|]. split; [lia|]. split; assumption.
Qed.

Lemma nf_loop_total : forall K M m ts d step sb tb sf qf, Forall nb_ok ts -> ts <> [] -> (0 < d)%Q -> (0 < step)%Q -> (0 <= tb)%Q ->
  (forall n, (K <= n)%nat -> (sb < sigma_at d step n)%Q) -> M = (length ts * (2 * (Z.to_nat (Qceiling tb) + 1)))%nat -> (M < sf)%nat -> (M < qf)%nat ->
  forall fuel n sc sn a, (0 <= a)%Q -> (K < fuel + n)%nat -> (1 <= fuel)%nat -> (sc == sigma_at d step n)%Q -> (sn == sigma_at d step (S n))%Q ->
  nf_loop fuel sf qf m ts step sb tb sc sn a <> None.
Proof.
  intros K M m ts d step sb tb sf qf Hn Hne Hd Hst Htb HK HM Hsf Hqf. induction fuel as [|f IH]; intros n sc sn a Ha Hf H1 Esc Esn; [lia|]. cbn [nf_loop].
  destruct (Qle_bool sc sb && Qle_bool a tb) eqn:E; cbn [negb]; [|discriminate]. apply andb_true_iff in E. destruct E as [E1 E2]. apply Qle_bool_iff in E1, E2.
  pose proof (sigma_mono d step 0 n Hst ltac:(lia)) as Mo. change (sigma_at d step 0) with d in Mo.
  destruct (Qeq_bool sc 0) eqn:E3; [apply Qeq_bool_iff in E3; lra|].
  assert (S0 : (0 < sc)%Q) by lra.
  destruct (tq_init_total ts sc a tb Hn S0 Ha Hne) as [q [Eq [Q1 [Q2 Q3]]]]. rewrite Eq.
  destruct (nf_scan sf qf m ts sc tb q (-1)) as [[t r]|] eqn:Sc; [|exfalso; eapply nf_scan_total; [exact Q1|exact Q2| | | |exact Sc]; [lra|lia|lia]].
  destruct r; [discriminate|].
  assert (HnK : (n < K)%nat) by (destruct (Nat.le_gt_cases K n) as [L|L]; [specialize (HK _ L); lra|assumption]).
  destruct (nf_sigma_total K m ts d step sb t HK f n sn ltac:(lia) ltac:(lia) Esn) as [n' [s [s' [N1 [N2 [N3 N4]]]]]]. rewrite N1.
  apply (IH n'); [|lia|lia|assumption|assumption].
  destruct (tq_init_spec ts sc a Hn S0 Ha) as [q' [Eq' [_ [_ Q4]]]]. rewrite Eq in Eq'. injection Eq' as <-.
  assert (Qpos : forall x, on_queue q x -> (0 < x)%Q) by (intros x Hx; apply Q4 in Hx; destruct Hx as [u [_ [X _]]]; lra).
  assert (Ql : forall x, on_queue q x -> (x == -1)%Q -> witness_condition m (map back ts) x sc = true) by (intros x Hx X; specialize (Qpos x Hx); lra).
  pose proof (nf_scan_spec _ _ _ _ _ _ _ _ _ _ Hn S0 Q1 Qpos Ql Sc) as [P1 _]. specialize (Qpos t P1). lra.
Qed.

Lemma n_ffdbf_terminates : forall ed g m ts, ts <> [] -> Forall nb_ok ts ->
  exists N, forall fuel sf qf, (N <= fuel)%nat -> (N <= sf)%nat -> (N <= qf)%nat -> n_ffdbf fuel sf qf ed g m ts false <> None.
Proof.
  intros ed g m ts Hne Hn. destruct ts as [|t ts]; [contradiction|].
  destruct (max_density_back t ts Hn) as [_ D].
  set (sb := min_q ((ns_util (t :: ts) - inject_Z m) / inject_Z (- (m - 1)) - (1 # ed)) 1).
  set (tb := (fold_left (fun x t => x + inject_Z (n_wcet t)) (t :: ts) 0 / (1 # ed))%Q).
  destruct (sigma_unbounded (ns_max_density (t :: ts)) (1 # g) sb ltac:(reflexivity) ltac:(lra)) as [K HK].
  exists (S (K + length (t :: ts) * (2 * (Z.to_nat (Qceiling tb) + 1)))). intros fuel sf qf F1 F2 F3. unfold n_ffdbf. cbn [andb]. destruct (m <? 2); [discriminate|]. fold sb tb.
  assert (C0 : (0 <= tb)%Q).
  { unfold tb. apply div_nonneg; [|reflexivity]. rewrite wcet_sum_back. apply zq_nonneg. apply zsum_nonneg. intros x Hx. rewrite map_map in Hx. apply in_map_iff in Hx. destruct Hx as [u [<- Hu]]. rewrite Forall_forall in Hn. destruct (Hn u Hu) as [U1 _]. cbn. lia. }
  apply (nf_loop_total K _ m (t :: ts) (ns_max_density (t :: ts)) (1 # g) sb tb sf qf Hn ltac:(discriminate) D ltac:(reflexivity) C0 HK eq_refl) with (n := 0%nat); [lia|lia|apply Qle_refl|lia|lia|reflexivity|].
  cbn [sigma_at]. change (inject_Z (Z.of_nat 1)) with 1%Q. rewrite q_trunc_floor by (apply div_nonneg; [lra|reflexivity]). ring.
Qed.
