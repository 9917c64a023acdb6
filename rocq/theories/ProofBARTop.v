(** Soundness of bar.is_schedulable. *)
From Coq Require Import ZArith QArith Qround List Bool Lia Lqa Permutation Sorted.
From Verif Require Import Base ModelTasks SpecTasks ProofTasks SpecUni SpecQPA SpecGlobal ProofUni ProofEDF ProofGlobal ProofGFB ModelGEDF ProofGEDF ProofBusy ProofBAK ProofBAR ModelBAR.
Import ListNotations.
Open Scope Z_scope.

Lemma dbf_jobs : forall t x N, 1 <= t_deadline t -> 1 <= t_period t -> 0 <= t_cost t -> 0 <= N ->
  (N = 0 \/ (N - 1) * t_period t + t_deadline t <= x) -> N * t_cost t <= dbf t x.
Proof.
  intros t x N HD HT HC HN H. unfold dbf. destruct (Z.leb_spec x 0) as [L|L].
  - destruct H as [->|H]; [lia|]. destruct (Z.eq_dec N 0) as [->|E]; [lia|]. nia.
  - destruct H as [->|H]; [lia|]. destruct (Z.eq_dec N 0) as [->|E]; [lia|].
    assert (N - 1 <= (x - t_deadline t) / t_period t) by (apply Z.div_le_lower_bound; lia). nia.
Qed.

Lemma dbf_le_carry : forall t x, 0 <= x -> 1 <= t_deadline t -> t_deadline t <= t_period t -> 0 <= t_cost t <= t_deadline t ->
  dbf t x <= bar_dbf_carry t x.
Proof.
  intros t x Hx HD HT HC. unfold dbf, bar_dbf_carry. set (T := t_period t) in *. set (D := t_deadline t) in *. set (C := t_cost t) in *.
  pose proof (Z.div_mod x T ltac:(lia)) as E. pose proof (Z.mod_pos_bound x T ltac:(lia)) as B.
  assert (Q0 : 0 <= x / T) by (apply Z.div_pos; lia). set (q := x / T) in *. set (rr := x mod T) in *.
  assert (P : 0 <= q * C + Z.min C rr) by nia.
  destruct (Z.leb_spec x 0); [assumption|]. apply Z.max_lub; [assumption|].
  destruct (Z.le_gt_cases D rr) as [L|L].
  - assert (Eq : (x - D) / T = q) by (symmetry; apply Z.div_unique with (rr - D); lia). rewrite Eq. nia.
  - assert (Eq : (x - D) / T = q - 1) by (symmetry; apply Z.div_unique with (rr - D + T); lia). rewrite Eq. nia.
Qed.

Lemma wl_carry : forall t x, 0 <= x -> wl (t_cost t) (t_period t) x = bar_dbf_carry t x.
Proof. intros t x H. unfold wl, bar_dbf_carry. destruct (Z.ltb_spec x 0); [lia|reflexivity]. Qed.

(** ** Points *)
Lemma ts_dbf_points_in : forall fuel ts max_t offset l, Forall (fun t => 0 < t_period t) ts -> 0 < offset ->
  ts_dbf_points fuel ts max_t offset = Some l ->
  forall t j, In t ts -> 0 <= j -> 0 <= t_deadline t - offset + j * t_period t <= max_t -> In (t_deadline t - offset + j * t_period t) l.
Proof.
  intros fuel ts max_t offset l Hp Ho H t j Ht Hj Hr. unfold ts_dbf_points in H.
  destruct (sequence (map (fun t => dbf_points_of_change fuel t max_t offset) ts)) as [ls|] eqn:E; [|discriminate].
  cbn in H. injection H as <-. apply sequence_Forall2 in E.
  assert (Spec : forall t l, 0 < t_period t -> dbf_points_of_change fuel t max_t offset = Some l ->
    StronglySorted Z.lt l /\ forall x, In x l <-> 0 <= x <= max_t /\ exists k, 0 <= k /\ x = t_deadline t - offset + k * t_period t).
  { intros t0 l0 H0 H1. unfold dbf_points_of_change in H1. apply points_from_spec in H1; [assumption|assumption|lia]. }
  assert (Hs : Forall (StronglySorted Z.le) ls).
  { clear - E Hp Spec. induction E as [|x y l l' H _ IH]; constructor; inversion Hp; subst; auto.
    apply ssorted_lt_le. eapply Spec; eassumption. }
  destruct (uniq_spec _ (merge_all_sorted _ Hs)) as [_ M1]. apply M1. apply merge_all_in. clear M1 Hs.
  induction E as [|x y l l' H _ IH]; [destruct Ht|]. inversion Hp; subst. destruct Ht as [->|Ht].
  - exists y. split; [left; reflexivity|]. apply (Spec _ _ H2 H). split; [assumption|]. exists j. split; [assumption|reflexivity].
  - destruct (IH H3 Ht) as [l1 [G1 G2]]. exists l1. split; [right; assumption|assumption].
Qed.

Lemma bar_loop_true : forall fuel m ts l, bar_loop fuel m ts l = Some true -> forall k tk, In (k, tk) l ->
  exists pts, ts_dbf_points fuel ts (Qfloor (bar_bound ts m tk)) (t_deadline tk) = Some pts /\ forall a, In a pts -> bar_offset ts k tk a m = true.
Proof.
  intros fuel m ts. induction l as [|[k0 t0] l IH]; intros H k tk Hin; [destruct Hin|]. cbn [bar_loop] in H.
  destruct (ts_dbf_points fuel ts (Qfloor (bar_bound ts m t0)) (t_deadline t0)) as [pts|] eqn:E; [|discriminate].
  destruct (forallb (fun a => bar_offset ts k0 t0 a m) pts) eqn:F; [|discriminate].
  destruct Hin as [Eq|Hin]; [|apply IH; assumption]. injection Eq as -> ->. exists pts. split; [assumption|]. rewrite forallb_forall in F. exact F.
Qed.

(** ** Sums of the largest values *)
Lemma filter_selection : forall A (g : A -> Q) (p : A -> bool) l, selection (map g l) (map g (filter p l)) (length (filter p l)).
Proof.
  intros A g p l. split; [apply map_length|]. exists (map g (filter (fun x => negb (p x)) l)). rewrite <- map_app. apply Permutation_map.
  induction l as [|x l IH]; cbn; [constructor|]. destruct (p x); cbn; [constructor; assumption|].
  symmetry. apply Permutation_cons_app. symmetry. assumption.
Qed.

Lemma total_filter : forall A (g : A -> Q) (p : A -> bool) l,
  (total (map g (filter p l)) == qsum (map (fun x => inject_Z (b2z (p x)) * g x) l))%Q.
Proof.
  intros A g p. induction l as [|x l IH]; cbn; [reflexivity|]. unfold qsum in IH. destruct (p x); cbn; rewrite IH; cbn [b2z]; ring.
Qed.

Lemma indexed_seq : forall (ts : taskset), indexed ts = map (fun i => (i, nth i ts dt)) (seq 0 (length ts)).
Proof.
  intros ts. unfold indexed. assert (G : forall a, combine (seq a (length ts)) ts = map (fun i => (i, nth (i - a) ts dt)) (seq a (length ts))).
  { induction ts as [|t r IH]; intros a; [reflexivity|]. cbn [length seq combine map]. rewrite Nat.sub_diag. cbn [nth]. f_equal.
    rewrite IH. apply map_ext_in. intros i Hi. apply in_seq in Hi. replace (i - a)%nat with (S (i - S a)) by lia. reflexivity. }
  rewrite G. apply map_ext. intros i. rewrite Nat.sub_0_r. reflexivity.
Qed.

Lemma count_filter : forall (p : nat -> bool) n, Z.of_nat (length (filter p (seq 0 n))) = sumf (fun i => b2z (p i)) n.
Proof.
  intros p n. rewrite sumf_seq. induction (seq 0 n) as [|x l IH]; [reflexivity|]. cbn [filter map zsum].
  destruct (p x); cbn [length b2z]; lia.
Qed.

(** the sum over a small set of positions is at most the sum of the largest *)
Lemma topsum_mask : forall A (l : list A) (f : A -> Q) (dflt : A) (p : nat -> bool) n,
  (forall x, In x l -> (0 <= f x)%Q) -> sumf (fun i => b2z (p i)) (length l) <= Z.of_nat n ->
  (qsum (map (fun i => inject_Z (b2z (p i)) * f (nth i l dflt)) (seq 0 (length l))) <= topsum l f n)%Q.
Proof.
  intros A l f dflt p n Hf Hn.
  assert (E : l = map (fun i => nth i l dflt) (seq 0 (length l))).
  { clear. induction l as [|x l IH]; [reflexivity|]. cbn [length seq map nth]. f_equal. rewrite <- seq_shift, map_map. exact IH. }
  assert (S1 : selection (map f l) (map (fun i => f (nth i l dflt)) (filter p (seq 0 (length l)))) (length (filter p (seq 0 (length l))))).
  { rewrite E at 1. rewrite map_map. apply filter_selection. }
  rewrite <- total_filter. eapply topsum_upper_le; [exact Hf| |exact S1]. rewrite <- count_filter in Hn. lia.
Qed.

Lemma qsum_nth_eq : forall (f : task -> Q) ts, (qsum (map (fun i => f (nth i ts dt)) (seq 0 (length ts))) == qsum (map f ts))%Q.
Proof.
  intros f ts. assert (G : forall a, (qsum (map (fun i => f (nth (i - a) ts dt)) (seq a (length ts))) == qsum (map f ts))%Q).
  { induction ts as [|t r IH]; intros a; [reflexivity|]. cbn [length seq map]. cbn [qsum fold_right].
    rewrite Nat.sub_diag. cbn [nth]. change (fold_right Qplus 0%Q) with qsum.
    rewrite (map_ext_in _ (fun i => f (nth (i - S a) r dt))).
    - rewrite (IH (S a)). reflexivity.
    - intros i Hi. apply in_seq in Hi. replace (i - a)%nat with (S (i - S a)) by lia. reflexivity. }
  rewrite <- (G 0%nat). rewrite (map_ext (fun i => f (nth (i - 0) ts dt)) (fun i => f (nth i ts dt))); [reflexivity|].
  intros i. rewrite Nat.sub_0_r. reflexivity.
Qed.

Lemma qsum_add : forall A (f g : A -> Q) l, (qsum (map (fun x => f x + g x) l) == qsum (map f l) + qsum (map g l))%Q.
Proof. intros A f g. induction l as [|x l IH]; cbn; [reflexivity|]. unfold qsum in IH. rewrite IH. ring. Qed.

Lemma qsum_ext : forall A (f g : A -> Q) l, (forall x, In x l -> (f x == g x)%Q) -> (qsum (map f l) == qsum (map g l))%Q.
Proof.
  intros A f g. induction l as [|x l IH]; intros H; cbn; [reflexivity|]. unfold qsum in IH.
  rewrite IH by (intros; apply H; right; assumption). rewrite (H x (or_introl eq_refl)). reflexivity.
Qed.

Lemma bar_sound : forall fuel (m : nat) ts, (1 <= m)%nat -> Forall wf_task ts -> Forall constrained ts -> Forall feasible ts ->
  bar_test fuel (Z.of_nat m) ts = Some true -> gedf_schedulable (map e_of ts) m.
Proof.
  intros fuel m ts Hm Hw Hc Hf Ht. apply no_first_miss; [assumption|].
  intros s sc Hl Hv Hp d IH k q Hk Hdue Hmiss.
  assert (Hwi : forall i, (i < length ts)%nat -> wf_task (nth i ts dt)) by (intros; apply Forall_nth_lt; assumption).
  assert (Hci : forall i, (i < length ts)%nat -> constrained (nth i ts dt)) by (intros; apply Forall_nth_lt; assumption).
  assert (Hfi : forall i, (i < length ts)%nat -> feasible (nth i ts dt)) by (intros; apply Forall_nth_lt; assumption).
  pose proof Hk as Hk'. rewrite map_length in Hk'. set (tk := nth k ts dt) in *.
  unfold bar_test in Ht. destruct (Qle_bool (inject_Z (Z.of_nat m)) (ts_utilization ts None)) eqn:EU; [discriminate|]. cbn [orb] in Ht.
  destruct (negb (forallb constrained_deadline ts)); [discriminate|].
  assert (HU : (ts_utilization ts None < inject_Z (Z.of_nat m))%Q) by (apply Qnot_le_lt; intros X; apply Qle_bool_iff in X; congruence).
  destruct (bar_loop_true _ _ _ _ Ht k tk) as [pts [Ep Hpts]].
  { apply indexed_in. apply nth_error_nth'. assumption. }
  destruct (Hwi k Hk') as [K1 [K2 K3]]. fold tk in K1, K2, K3.
  assert (HDe : forall i, (i < length (map e_of ts))%nat -> 1 <= e_deadline (et (map e_of ts) i) <= e_period (et (map e_of ts) i)).
  { intros i Hi. rewrite map_length in Hi. rewrite et_of. cbn. destruct (Hwi i Hi) as [_ [X _]]. specialize (Hci i Hi). unfold constrained in Hci. lia. }
  assert (HCe : forall i, (i < length (map e_of ts))%nat -> 0 <= e_cost (et (map e_of ts) i) <= e_deadline (et (map e_of ts) i)).
  { intros i Hi. rewrite map_length in Hi. rewrite et_of. cbn. destruct (Hwi i Hi) as [X _]. specialize (Hfi i Hi). unfold feasible in Hfi. lia. }
  destruct (carry_core (map e_of ts) m s sc (wf_e_of ts Hw) Hl Hv Hp Hm HDe HCe d IH k q Hk Hdue Hmiss) as [A [car [w [HA [Hcar [Hsum Hw']]]]]].
  rewrite map_length in Hcar, Hsum. rewrite et_of in Hsum. cbn [e_of e_cost e_deadline] in Hsum. fold tk in Hsum.
  destruct HA as [HA0 [i0 [j0 [Hi0 [Hj0 EA]]]]]. rewrite map_length in Hi0. rewrite !et_of in EA. cbn [e_of e_deadline e_period] in EA. fold tk in EA.
  set (L := A + t_deadline tk) in *. assert (HL : 1 <= L) by (unfold L; lia).
  set (n := length ts) in *.
  assert (Hwi' : forall i, (i < n)%nat ->
    (if Nat.eqb i k then w i <= A else w i <= L - t_cost tk + 1) /\
    (car i = true -> w i <= bar_dbf_carry (nth i ts dt) L - (if Nat.eqb i k then t_cost tk else 0)) /\
    (car i = false -> exists N, 0 <= N /\ (N = 0 \/ (N - 1) * t_period (nth i ts dt) + t_deadline (nth i ts dt) <= L) /\
       w i <= N * t_cost (nth i ts dt) - (if Nat.eqb i k then t_cost tk else 0))).
  { intros i Hi. destruct (Hw' i ltac:(rewrite map_length; assumption)) as [G1 [G2 G3]]. rewrite ?(et_of ts i), ?(et_of ts k) in G1; rewrite ?(et_of ts i), ?(et_of ts k) in G2; rewrite ?(et_of ts i), ?(et_of ts k) in G3.
    cbn [e_of e_cost e_deadline e_period] in G1, G2, G3. fold tk in G1, G2, G3. fold L in G1, G2, G3.
    split; [exact G1|]. split; [rewrite <- wl_carry by lia; exact G2|]. intros E. destruct (G3 E) as [N [N1 [N2 [N3 N4]]]]. exists N. tauto. }
  clear Hw'.
  destruct (Z.le_gt_cases A (Qfloor (bar_bound ts (Z.of_nat m) tk))) as [Le|Gt].
  - (* the point is tested *)
    assert (HinA : In A pts).
    { replace A with (t_deadline (nth i0 ts dt) - t_deadline tk + j0 * t_period (nth i0 ts dt)) by lia.
      apply (ts_dbf_points_in fuel ts (Qfloor (bar_bound ts (Z.of_nat m) tk)) (t_deadline tk) pts); [|lia|exact Ep|apply nth_In; assumption|exact Hj0|lia].
      eapply Forall_impl; [|exact Hw]. intros t [_ [_ X]]. lia. }
    specialize (Hpts A HinA). unfold bar_offset in Hpts. apply Qle_bool_iff in Hpts. fold L in Hpts.
    set (F1 := fun i => bar_I1 (Nat.eqb i k) (nth i ts dt) tk A). set (F2 := fun i => bar_I2 (Nat.eqb i k) (nth i ts dt) tk A).
    rewrite indexed_seq, !map_map in Hpts. cbn [fst snd] in Hpts. fold n in Hpts.
    change (map (fun x => bar_I1 (Nat.eqb x k) (nth x ts dt) tk A) (seq 0 n)) with (map F1 (seq 0 n)) in Hpts.
    change (map (fun x => bar_I2 (Nat.eqb x k) (nth x ts dt) tk A - bar_I1 (Nat.eqb x k) (nth x ts dt) tk A) (seq 0 n)) with (map (fun i => F2 i - F1 i) (seq 0 n)) in Hpts.
    assert (H12 : forall i, (i < n)%nat -> F1 i <= F2 i).
    { intros i Hi. unfold F1, F2, bar_I1, bar_I2. fold L. pose proof (dbf_le_carry (nth i ts dt) L ltac:(lia)) as X.
      destruct (Hwi i Hi) as [Y1 [Y2 Y3]]. specialize (Hci i Hi). specialize (Hfi i Hi). unfold constrained, feasible in *. specialize (X Y2 Hci ltac:(lia)).
      destruct (Nat.eqb i k); lia. }
    assert (HwF : forall i, (i < n)%nat -> w i <= F1 i + b2z (car i) * (F2 i - F1 i)).
    { intros i Hi. destruct (Hwi' i Hi) as [G1 [G2 G3]]. destruct (Hwi i Hi) as [Y1 [Y2 Y3]]. destruct (car i); cbn [b2z].
      - specialize (G2 eq_refl). enough (w i <= F2 i) by lia. unfold F2, bar_I2. fold L. destruct (Nat.eqb i k); lia.
      - destruct (G3 eq_refl) as [N [N1 [N2 N3]]]. pose proof (dbf_jobs (nth i ts dt) L N Y2 Y3 Y1 N1 N2) as X.
        enough (w i <= F1 i) by lia. unfold F1, bar_I1. fold L. destruct (Nat.eqb i k); lia. }
    assert (S1 : sumf w n <= sumf F1 n + sumf (fun i => b2z (car i) * (F2 i - F1 i)) n) by (rewrite <- sumf_add; apply sumf_le; assumption).
    assert (S2 : (inject_Z (sumf (fun i => (b2z (car i) * (F2 i - F1 i))%Z) n) <= topsum (map (fun i => (F2 i - F1 i)%Z) (seq 0 n)) inject_Z (Z.to_nat (Z.of_nat m - 1)))%Q).
    { rewrite <- qsum_inject. eapply Qle_trans; [|apply (topsum_mask Z _ inject_Z 0 car)].
      - rewrite map_length, seq_length. apply Qle_lteq. right. apply qsum_ext. intros i Hi. apply in_seq in Hi.
        rewrite nth_indep with (d' := F2 0%nat - F1 0%nat) by (rewrite map_length, seq_length; lia).
        rewrite (map_nth (fun i => F2 i - F1 i) (seq 0 n) 0%nat i), seq_nth by lia. rewrite inject_Z_mult. reflexivity.
      - intros x Hx. apply in_map_iff in Hx. destruct Hx as [i [<- Hi]]. apply in_seq in Hi. change 0%Q with (inject_Z 0). apply zq_le.
        specialize (H12 i ltac:(lia)). lia.
      - rewrite map_length, seq_length. lia. }
    assert (E1 : zsum (map F1 (seq 0 n)) = sumf F1 n) by (rewrite sumf_seq; reflexivity).
    rewrite E1 in Hpts.
    assert (X : (inject_Z (Z.of_nat m * (L - t_cost tk + 1)) <= inject_Z (Z.of_nat m * (L - t_cost tk)))%Q).
    { eapply Qle_trans; [|exact Hpts]. eapply Qle_trans; [apply zq_le; exact Hsum|]. eapply Qle_trans; [apply zq_le; exact S1|].
      rewrite inject_Z_plus. apply Qplus_le_compat; [apply Qle_refl|exact S2]. }
    rewrite <- Zle_Qle in X. lia.
  - (* beyond the bound *)
    assert (Hb : (bar_bound ts (Z.of_nat m) tk < inject_Z A)%Q).
    { eapply Qlt_le_trans; [apply Qlt_floor|]. apply zq_le. lia. }
    unfold bar_bound in Hb. set (U := ts_utilization ts None) in *.
    set (cs := topsum ts (fun t => inject_Z (t_cost t)) (Z.to_nat (Z.of_nat m - 1))) in *.
    set (y := qsum (map (fun t => (inject_Z (t_period t - t_deadline t) * utilization t)%Q) ts)) in *.
    set (M := inject_Z (Z.of_nat m)) in *.
    assert (Hmu : (0 < M - U)%Q) by lra.
    assert (Hb2 : (cs - inject_Z (t_deadline tk) * (M - U) + y + M * inject_Z (t_cost tk) < inject_Z A * (M - U))%Q).
    { apply (Qmult_lt_r _ _ _ Hmu) in Hb. eapply Qle_lt_trans; [|exact Hb]. apply Qle_lteq. right. field. lra. }
    assert (Hwq : forall i, (i < n)%nat -> (inject_Z (w i) <= utilization (nth i ts dt) * inject_Z L +
      inject_Z (t_period (nth i ts dt) - t_deadline (nth i ts dt)) * utilization (nth i ts dt) + inject_Z (b2z (car i)) * inject_Z (t_cost (nth i ts dt)))%Q).
    { intros i Hi. destruct (Hwi' i Hi) as [_ [G2 G3]]. destruct (Hwi i Hi) as [Y1 [Y2 Y3]]. pose proof (Hci i Hi) as Y4. unfold constrained in Y4. set (ti := nth i ts dt) in *.
      set (u := utilization ti). assert (Eu : (u * inject_Z (t_period ti) == inject_Z (t_cost ti))%Q) by (unfold u, utilization; apply zdivq_scale; lia).
      assert (Nu : (0 <= u)%Q) by (unfold u, utilization; apply zdivq_nonneg; lia).
      assert (Hik : 0 <= (if Nat.eqb i k then t_cost tk else 0)) by (destruct (Nat.eqb i k); lia).
      assert (P1 : (0 <= inject_Z (t_period ti - t_deadline ti))%Q) by (change 0%Q with (inject_Z 0); apply zq_le; lia).
      assert (P2 : (1 <= inject_Z L)%Q) by (change 1%Q with (inject_Z 1); apply zq_le; lia).
      assert (P3 : (0 <= inject_Z (t_period ti - t_deadline ti) * u)%Q) by (apply Qmult_le_0_compat; assumption).
      assert (P4 : (0 <= u * inject_Z L)%Q) by (apply Qmult_le_0_compat; lra).
      destruct (car i); cbn [b2z].
      - specialize (G2 eq_refl). unfold bar_dbf_carry in G2.
        pose proof (Z.div_mod L (t_period ti) ltac:(lia)) as E. pose proof (Z.mod_pos_bound L (t_period ti) ltac:(lia)) as B.
        set (qq := L / t_period ti) in *. assert (W1 : w i <= qq * t_cost ti + t_cost ti) by lia.
        assert (W2 : qq * t_period ti <= L) by lia. apply zq_le in W1. apply zq_le in W2.
        rewrite inject_Z_plus, inject_Z_mult in W1. rewrite inject_Z_mult in W2. change (inject_Z 1) with 1%Q.
        assert (W3 : (inject_Z qq * inject_Z (t_cost ti) <= u * inject_Z L)%Q).
        { rewrite <- Eu. setoid_replace (inject_Z qq * (u * inject_Z (t_period ti)))%Q with (inject_Z qq * inject_Z (t_period ti) * u)%Q by ring.
          rewrite (Qmult_comm u). apply Qmult_le_compat_r; assumption. }
        lra.
      - change (inject_Z 0) with 0%Q. destruct (G3 eq_refl) as [N [N1 [N2 N3]]]. destruct N2 as [->|N2].
        + assert (W1 : w i <= 0) by lia. apply zq_le in W1. change (inject_Z 0) with 0%Q in W1. lra.
        + assert (W1 : w i <= N * t_cost ti) by lia. apply zq_le in W1. rewrite inject_Z_mult in W1.
          assert (W2 : N * t_period ti <= L + (t_period ti - t_deadline ti)) by lia. apply zq_le in W2. rewrite inject_Z_mult, inject_Z_plus in W2.
          assert (W3 : (inject_Z N * inject_Z (t_cost ti) <= (inject_Z L + inject_Z (t_period ti - t_deadline ti)) * u)%Q).
          { rewrite <- Eu. setoid_replace (inject_Z N * (u * inject_Z (t_period ti)))%Q with (inject_Z N * inject_Z (t_period ti) * u)%Q by ring.
            apply Qmult_le_compat_r; assumption. }
          lra. }
    assert (S1 : (inject_Z (sumf w n) <= U * inject_Z L + y + cs)%Q).
    { rewrite <- qsum_inject. eapply Qle_trans; [apply qsum_le; intros i Hi; apply in_seq in Hi; apply Hwq; lia|].
      rewrite !qsum_add. apply Qplus_le_compat; [apply Qplus_le_compat|].
      - rewrite qsum_mul_r. unfold n. rewrite (qsum_nth_eq utilization ts). apply Qle_refl.
      - unfold n. rewrite (qsum_nth_eq (fun t => inject_Z (t_period t - t_deadline t) * utilization t)%Q ts). apply Qle_refl.
      - unfold cs, n. apply (topsum_mask task ts (fun t => inject_Z (t_cost t)) dt car).
        + intros t Ht0. rewrite Forall_forall in Hw. destruct (Hw t Ht0) as [X _]. change 0%Q with (inject_Z 0). apply zq_le. assumption.
        + fold n. lia. }
    apply zq_le in Hsum. rewrite inject_Z_mult, inject_Z_plus, inject_sub in Hsum. fold M in Hsum. change (inject_Z 1) with 1%Q in Hsum.
    assert (EL : (inject_Z L == inject_Z A + inject_Z (t_deadline tk))%Q) by (unfold L; rewrite inject_Z_plus; reflexivity).
    assert (HM : (1 <= M)%Q) by (unfold M; change 1%Q with (inject_Z 1); apply zq_le; lia).
    assert (F : (M * (inject_Z L - inject_Z (t_cost tk) + 1) <= U * inject_Z L + y + cs)%Q) by lra.
    rewrite EL in F. 
    assert (F2 : ((M - U) * (inject_Z A + inject_Z (t_deadline tk)) <= y + cs + M * inject_Z (t_cost tk) - M)%Q) by lra.
    lra.
Qed.

Lemma bar_terminates : forall m ts, Forall wf_task ts -> exists N, forall fuel, (N <= fuel)%nat -> bar_test fuel m ts <> None.
Proof.
  intros m ts Hw.
  assert (P : forall max_t offset, exists n, forall fuel, (n <= fuel)%nat -> ts_dbf_points fuel ts max_t offset <> None).
  { intros max_t offset. destruct (fuel_all (fun fuel t => dbf_points_of_change fuel t max_t offset) ts) as [n Hn].
    { intros t Ht. rewrite Forall_forall in Hw. destruct (Hw t Ht) as [_ [_ ?]]. apply points_from_fuel. lia. }
    exists n. intros fuel Hf. unfold ts_dbf_points.
    destruct (sequence_Some _ _ (fun t => dbf_points_of_change fuel t max_t offset) ts (Hn fuel Hf)) as [ls ->]. discriminate. }
  assert (L : forall l, exists n, forall fuel, (n <= fuel)%nat -> bar_loop fuel m ts l <> None).
  { induction l as [|[k t] r [n1 H1]]; [exists 0%nat; discriminate|].
    destruct (P (Qfloor (bar_bound ts m t)) (t_deadline t)) as [n2 H2]. exists (n1 + n2)%nat. intros fuel Hf. cbn [bar_loop].
    specialize (H2 fuel ltac:(lia)). destruct (ts_dbf_points _ _ _ _); [|contradiction]. destruct (forallb _ _); [apply H1; lia|discriminate]. }
  destruct (L (indexed ts)) as [n Hn]. exists n. intros fuel Hf. unfold bar_test. destruct (_ || _); [discriminate|]. apply Hn. assumption.
Qed.
