(** Lemmas for C25 and C26: fp.py, quanta.py, pfair.py and locking.py. *)
From Coq Require Import ZArith QArith Qround Lqa List Bool Lia.
From Verif Require Import Base ModelTasks ModelOverheads SpecOverheads ProofPwl ProofOverheads.
Import ListNotations.
Open Scope Q_scope.

(** ** fp.py *)
Definition oj (t : otask) : Q := match o_jitter t with Some j => j | None => 0 end.

Definition tick_isr (o : overheads) (x : Q) (t : otask) : Prop :=
  o_cost t == tick o x /\ o_period t == quantum_length o /\ o_deadline t == quantum_length o /\ o_jitter t = Some (release_latency o x).
Definition release_isr (o : overheads) (x : Q) (s t : otask) : Prop :=
  o_cost t == release o x /\ o_period t == o_period s /\ o_deadline t == o_period s /\ o_jitter t = Some (release_latency o x).

Lemma fp_charge_done : forall o x ded ts, ts <> [] ->
  exists ticks rels ts', fp_charge (Some o) x ded ts = ticks ++ rels ++ ts' /\
  (if negb (Qle_bool (tick o x) 0) then exists t, ticks = [t] /\ tick_isr o x t else ticks = []) /\
  (if negb ded && negb (Qle_bool (release o x) 0) then Forall2 (release_isr o x) ts rels else rels = []) /\
  Forall2 (fun t t' => o_cost t' == o_cost t + 2 * (schedule o x + ctx_switch o x) + cache_affinity_loss o x /\
    o_period t' = o_period t /\ o_deadline t' = o_deadline t /\
    exists j, o_jitter t' = Some j /\ j == oj t + release_latency o x + release o x + (if ded then ipi_latency o x else 0)) ts ts'.
Proof.
  intros o x ded ts Hn. destruct ts as [|t0 ts0]; [contradiction|]. set (ts := t0 :: ts0).
  unfold fp_charge. change (match ts with [] => ts | _ :: _ => _ end) with
    ((if negb (Qle_bool (tick o x) 0) then [isr_task (tick o x) (quantum_length o) (release_latency o x)] else []) ++
     (if negb ded && negb (Qle_bool (release o x) 0) then map (fun t => isr_task (release o x) (o_period t) (release_latency o x)) ts else []) ++
     map (fun t => OTask (o_cost t + (2 * (schedule o x + ctx_switch o x) + cache_affinity_loss o x)) (o_period t) (o_deadline t) (o_wss t) (o_early t)
                        (Some (oj t + (release_latency o x + release o x + (if ded then ipi_latency o x else 0))))) ts).
  eexists. eexists. eexists. split; [reflexivity|]. split; [|split].
  - destruct (negb (Qle_bool (tick o x) 0)); [|reflexivity]. eexists. split; [reflexivity|]. repeat split; reflexivity.
  - destruct (negb ded && negb (Qle_bool (release o x) 0)); [|reflexivity]. generalize ts. clear. induction ts as [|t ts IH]; cbn [map]; constructor; [|assumption].
    repeat split; reflexivity.
  - generalize ts. clear. induction ts as [|t ts IH]; cbn [map]; constructor; [|assumption]. cbn [o_cost o_period o_deadline o_jitter].
    split; [ring|]. split; [reflexivity|]. split; [reflexivity|]. eexists. split; [reflexivity|]. ring.
Qed.

Lemma fp_zero : forall q x ded ts, Forall2 (fun t t' => o_cost t' == o_cost t /\ o_period t' = o_period t /\ o_deadline t' = o_deadline t /\ oj t' == oj t)
  ts (fp_charge (Some (zero_overheads q)) x ded ts).
Proof.
  intros q x ded ts. destruct ts as [|t0 ts0]; [constructor|]. set (ts := t0 :: ts0).
  assert (Hn : ts <> []) by discriminate. destruct (fp_charge_done (zero_overheads q) x ded ts Hn) as [tk [rl [ts' [E [T [R F]]]]]].
  cbn [zero_overheads tick release] in T, R. change (Qle_bool 0 0) with true in T, R. cbn [negb] in T, R. rewrite andb_false_r in R. subst tk rl. rewrite E. cbn [app].
  eapply F2_impl; [|exact F]. intros t t' [C [P [D [j [J Ej]]]]]. cbn [zero_overheads schedule ctx_switch cache_affinity_loss release_latency release ipi_latency] in *.
  split; [rewrite C; ring|]. split; [assumption|]. split; [assumption|]. unfold oj at 1. rewrite J, Ej. destruct ded; ring.
Qed.

Lemma fp_quantize_done : forall ts ts', fp_quantize ts = Done ts' ->
  Forall2 (fun t t' => rounded_up 1 (o_cost t) (o_cost t') /\ rounded_down 1 (o_period t) (o_period t') /\ rounded_down 1 (o_deadline t) (o_deadline t') /\
    (exists j j', o_jitter t = Some j /\ o_jitter t' = Some j' /\ rounded_up 1 j j') /\
    (0 <= o_period t -> 0 <= o_deadline t -> 1 <= o_period t' /\ 1 <= o_deadline t' /\ fits (o_cost t') (o_period t') (o_deadline t'))) ts ts'.
Proof.
  intros ts ts' H. apply charge_all_done in H. eapply F2_impl; [|exact H]. clear. intros t t' H. cbv beta zeta in H.
  destruct (o_jitter t) as [j|] eqn:J; [|discriminate].
  pose proof (check_gt_fits _ _ _ _ _ _ H) as F. apply check_gt_done in H. destruct H as [-> [N _]]. cbn [o_cost o_period o_deadline o_jitter].
  pose proof (ceil_bounds (o_cost t)) as [A1 A2]. pose proof (floor_bounds (o_period t)) as [B1 B2]. pose proof (floor_bounds (o_deadline t)) as [C1 C2].
  pose proof (ceil_bounds j) as [J1 J2].
  assert (M : forall z, multiple 1 (inject_Z z)) by (intros z; exists z; ring).
  split; [split; [apply M|split; assumption]|]. split; [split; [apply M|split; assumption]|]. split; [split; [apply M|split; assumption]|].
  split; [eexists; eexists; split; [reflexivity|]; split; [reflexivity|]; split; [apply M|split; assumption]|].
  intros P D. assert (Z1 : (0 <= Qfloor (o_period t))%Z) by (change 0%Z with (Qfloor 0); apply Qfloor_resp_le; assumption).
  assert (Z2 : (0 <= Qfloor (o_deadline t))%Z) by (change 0%Z with (Qfloor 0); apply Qfloor_resp_le; assumption).
  assert (Z3 : (Qfloor (o_period t) <> 0 /\ Qfloor (o_deadline t) <> 0)%Z).
  { split; intros Z; apply N; rewrite Z; unfold qmin; destruct (Qle_bool _ _) eqn:L; try reflexivity.
    - apply qle_bool_false in L. change 0 with (inject_Z 0) in L. rewrite <- Zlt_Qlt in L. lia.
    - apply Qle_bool_iff in L. apply Qle_antisym; [assumption|]. change 0 with (inject_Z 0). rewrite <- Zle_Qle. assumption. }
  assert (L1 : 1 <= inject_Z (Qfloor (o_period t))) by (change 1 with (inject_Z 1); rewrite <- Zle_Qle; lia).
  assert (L2 : 1 <= inject_Z (Qfloor (o_deadline t))) by (change 1 with (inject_Z 1); rewrite <- Zle_Qle; lia).
  split; [assumption|]. split; [assumption|]. apply F; lra.
Qed.

(** ** quanta.py *)
Definition fits_strict (c p d : Q) : Prop := c < p /\ c < d.

Lemma div_lt1 : forall a u, 0 < u -> (a / u < 1 <-> a < u).
Proof.
  intros a u H. split; intros H1.
  - assert (E : a == a / u * u) by (field; lra). assert (L : a / u * u < 1 * u) by (apply Qmult_lt_r; assumption). lra.
  - apply Qlt_shift_div_r; [assumption|lra].
Qed.

Lemma check_ge_done : forall t t', check_ge t = Done t' -> t' = t /\ ~ qmin (nq (q_period t)) (nq (q_deadline t)) == 0 /\
  q_cost t / qmin (nq (q_period t)) (nq (q_deadline t)) < 1.
Proof.
  intros t t' H. unfold check_ge, odensity in H. destruct (Qeq_bool (qmin (nq (q_period t)) (nq (q_deadline t))) 0) eqn:E; [discriminate|].
  destruct (Qle_bool 1 (q_cost t / qmin (nq (q_period t)) (nq (q_deadline t)))) eqn:F; [discriminate|]. injection H as <-. split; [reflexivity|]. split.
  - intros C. apply Qeq_bool_iff in C. congruence.
  - apply qle_bool_false. assumption.
Qed.
Lemma check_ge_fits : forall t t', check_ge t = Done t' -> 0 < nq (q_period t) -> 0 < nq (q_deadline t) ->
  fits_strict (q_cost t) (nq (q_period t)) (nq (q_deadline t)).
Proof.
  intros t t' H Hp Hd. apply check_ge_done in H. destruct H as [_ [_ H]]. apply (proj1 (div_lt1 _ _ (qmin_lt _ _ _ Hp Hd))) in H.
  split; eapply Qlt_le_trans; try exact H; [apply qmin_l|apply qmin_r].
Qed.
Lemma check_ge_intro : forall t, 0 < nq (q_period t) -> 0 < nq (q_deadline t) ->
  fits_strict (q_cost t) (nq (q_period t)) (nq (q_deadline t)) -> check_ge t = Done t.
Proof.
  intros t Hp Hd [F1 F2]. assert (M := qmin_lt _ _ _ Hp Hd). unfold check_ge, odensity.
  destruct (Qeq_bool _ 0) eqn:E; [apply Qeq_bool_iff in E; lra|].
  destruct (Qle_bool 1 _) eqn:F; [|reflexivity]. apply Qle_bool_iff in F.
  assert (X : q_cost t / qmin (nq (q_period t)) (nq (q_deadline t)) < 1) by (apply div_lt1; [assumption|apply qmin_lt; assumption]). lra.
Qed.
Lemma check_ge_reject : forall t, 0 < nq (q_period t) -> 0 < nq (q_deadline t) ->
  ~ fits_strict (q_cost t) (nq (q_period t)) (nq (q_deadline t)) -> check_ge t = Rejected.
Proof.
  intros t Hp Hd N. assert (M := qmin_lt _ _ _ Hp Hd). unfold check_ge, odensity.
  destruct (Qeq_bool _ 0) eqn:E; [apply Qeq_bool_iff in E; lra|].
  destruct (Qle_bool 1 _) eqn:F; [reflexivity|]. exfalso. apply N. apply qle_bool_false in F. apply (proj1 (div_lt1 _ _ M)) in F.
  split; eapply Qlt_le_trans; try exact F; [apply qmin_l|apply qmin_r].
Qed.

(** the least number of quanta that provide [c] units of service *)
Definition quanta_needed (eff c : Q) (k : Z) : Prop := c <= inject_Z k * eff /\ forall j : Z, c <= inject_Z j * eff -> (k <= j)%Z.

Lemma ceiling_quanta : forall eff c, 0 < eff -> quanta_needed eff c (Qceiling (c / eff)).
Proof.
  intros eff c H. pose proof (ceil_bounds (c / eff)) as [A B]. split.
  - setoid_replace c with (c / eff * eff) at 1 by (field; lra). apply Qmult_le_compat_r; lra.
  - intros j Hj. assert (X : c / eff <= inject_Z j) by (apply Qle_shift_div_r; assumption).
    assert (Y : inject_Z (Qceiling (c / eff)) < inject_Z (j + 1)) by (rewrite inject_Z_plus; change (inject_Z 1) with 1; lra).
    rewrite <- Zlt_Qlt in Y. lia.
Qed.

Lemma quantize_wcet_done : forall qlen ts eff ts', quantize_wcet qlen ts (Some eff) = Done ts' ->
  0 < eff /\ 0 < nq qlen /\
  Forall2 (fun t t' => (exists k, quanta_needed eff (q_cost t) k /\ q_cost t' == inject_Z k * nq qlen) /\
    q_period t' = q_period t /\ q_deadline t' = q_deadline t /\
    (0 < nq (q_period t) -> 0 < nq (q_deadline t) -> fits_strict (q_cost t') (nq (q_period t')) (nq (q_deadline t')))) ts ts'.
Proof.
  intros qlen ts eff ts' H. unfold quantize_wcet in H. destruct (Qle_bool eff 0) eqn:E1; [discriminate|]. destruct (Qle_bool (nq qlen) 0) eqn:E2; [discriminate|].
  apply qle_bool_false in E1. apply qle_bool_false in E2. cbn [orb] in H. split; [assumption|]. split; [assumption|].
  apply charge_all_done in H. eapply F2_impl; [|exact H]. clear - E1. intros t t' H. cbv beta zeta in H.
  pose proof (check_ge_fits _ _ H) as F. apply check_ge_done in H. destruct H as [-> _]. cbn [q_cost q_period q_deadline] in *.
  split; [|split; [reflexivity|split; [reflexivity|assumption]]]. eexists. split; [apply ceiling_quanta; assumption|reflexivity].
Qed.

Lemma quanta_cost : forall qlen eff c k, 0 < eff -> eff <= qlen -> 0 <= c -> quanta_needed eff c k -> c <= inject_Z k * qlen.
Proof.
  intros qlen eff c k H1 H2 H3 [A B]. assert (K : (0 <= k)%Z).
  { destruct (Z.le_gt_cases 0 k) as [L|L]; [assumption|]. assert (X : inject_Z k <= -(1)) by (change (-(1)) with (inject_Z (-1)); rewrite <- Zle_Qle; lia).
    assert (inject_Z k * eff <= -(1) * eff) by (apply Qmult_le_compat_r; lra). lra. }
  assert (X : 0 <= inject_Z k) by (change 0 with (inject_Z 0); rewrite <- Zle_Qle; assumption).
  eapply Qle_trans; [exact A|]. rewrite !(Qmult_comm (inject_Z k)). apply Qmult_le_compat_r; assumption.
Qed.

Lemma quanta_rounded : forall q c k, 0 < q -> quanta_needed q c k -> rounded_up q c (inject_Z k * q).
Proof.
  intros q c k Hq [A B]. split; [exists k; reflexivity|]. split; [assumption|].
  destruct (Qlt_le_dec (inject_Z k * q) (c + q)) as [L|L]; [assumption|]. exfalso.
  specialize (B (k - 1)%Z). assert (Y : inject_Z (k - 1) * q == inject_Z k * q - q) by (unfold Z.sub; rewrite inject_Z_plus; change (inject_Z (- (1))) with (-(1)); ring).
  rewrite Y in B. assert ((k <= k - 1)%Z) by (apply B; lra). lia.
Qed.

Lemma nmul_q : forall k q, nq (nmul k q) == inject_Z k * nq q.
Proof. intros k [z|q]; cbn [nmul nq]; [rewrite inject_Z_mult; reflexivity|reflexivity]. Qed.
Lemma nsub_q : forall a b, nq (nsub a b) == nq a - nq b.
Proof. intros [x|x] [y|y]; cbn [nsub nq]; try reflexivity. unfold Z.sub. rewrite inject_Z_plus, inject_Z_opp. ring. Qed.
Lemma nadd_q : forall a b, nq (nadd a b) == nq a + nq b.
Proof. intros [x|x] [y|y]; cbn [nadd nq]; try reflexivity. rewrite inject_Z_plus. reflexivity. Qed.

Lemma floor_rounded : forall q p, 0 < q -> rounded_down q p (inject_Z (Qfloor (p / q)) * q).
Proof.
  intros q p H. pose proof (floor_bounds (p / q)) as [A B]. split; [eexists; reflexivity|].
  assert (E : p == p / q * q) by (field; lra). split.
  - rewrite E at 2. apply Qmult_le_compat_r; lra.
  - assert (X : p / q * q < (inject_Z (Qfloor (p / q)) + 1) * q) by (apply Qmult_lt_r; assumption). lra.
Qed.

Lemma round_down_some : forall qlen p p', 0 < nq qlen -> round_down qlen p = Some p' ->
  rounded_down (nq qlen) (nq p) (nq p') \/ (p' = p /\ exists a b, qlen = NI a /\ p = NI b /\ (b | a)%Z).
Proof.
  intros qlen p p' Hq H. unfold round_down in H. destruct (is_quantum_multiple p qlen) as [[|]|] eqn:E; [| |discriminate].
  - injection H as <-. right. split; [reflexivity|]. destruct p as [b|b], qlen as [a|a]; cbn in E; try (destruct (Qeq_bool _ 0); discriminate).
    destruct (Z.eqb_spec b 0) as [Z|Z]; [discriminate|]. injection E as E. exists a, b. split; [reflexivity|]. split; [reflexivity|].
    apply Z.mod_divide; [assumption|]. apply Z.eqb_eq. assumption.
  - left. destruct (Qeq_bool (nq qlen) 0); [discriminate|]. injection H as <-. pose proof (floor_rounded (nq qlen) (nq p) Hq) as [[k K] [A B]].
    split; [exists k; rewrite nmul_q; exact K|]. split; rewrite nmul_q; assumption.
Qed.
Lemma round_down_le : forall qlen p p', 0 < nq qlen -> round_down qlen p = Some p' -> nq p' <= nq p.
Proof. intros qlen p p' Hq H. apply round_down_some in H; [|assumption]. destruct H as [[_ [H _]]|[-> _]]; [assumption|apply Qle_refl]. Qed.
Lemma round_down_exact : forall qlen p p', 0 < nq qlen -> nq qlen <= nq p -> round_down qlen p = Some p' -> rounded_down (nq qlen) (nq p) (nq p').
Proof.
  intros qlen p p' Hq Hp H. apply round_down_some in H; [|assumption]. destruct H as [H|[-> [a [b [-> [-> D]]]]]]; [assumption|].
  cbn [nq] in *. rewrite <- Zle_Qle in Hp. change 0 with (inject_Z 0) in Hq. rewrite <- Zlt_Qlt in Hq.
  apply Z.divide_pos_le in D; [|assumption]. assert (X : b = a) by lia. subst b. split; [exists 1%Z; cbn; ring|]. split; [apply Qle_refl|].
  rewrite Zlt_Qlt in Hq. change (inject_Z 0) with 0 in Hq. lra.
Qed.
Lemma round_down_defined : forall qlen p, ~ nq qlen == 0 -> ~ nq p == 0 -> exists p', round_down qlen p = Some p'.
Proof.
  intros qlen p Hq Hp. unfold round_down. assert (E : exists b, is_quantum_multiple p qlen = Some b).
  { assert (Z : Qeq_bool (nq p) 0 = false) by (destruct (Qeq_bool (nq p) 0) eqn:F; [apply Qeq_bool_iff in F; contradiction|reflexivity]).
    destruct p as [b|b], qlen as [a|a]; cbn [is_quantum_multiple]; try (rewrite Z; eexists; reflexivity).
    destruct (Z.eqb_spec b 0) as [C|C]; [subst; exfalso; apply Hp; reflexivity|]. eexists. reflexivity. }
  destruct E as [[|] E]; rewrite E; [eexists; reflexivity|]. destruct (Qeq_bool (nq qlen) 0) eqn:F; [apply Qeq_bool_iff in F; contradiction|]. eexists. reflexivity.
Qed.

Lemma quantize_period_done : forall qlen ts dl ts', 0 < nq qlen -> quantize_period qlen ts dl = Done ts' ->
  Forall2 (fun t t' => q_cost t' = q_cost t /\ nq (q_period t') <= nq (q_period t) /\ nq (q_deadline t') <= nq (q_deadline t) /\
    (nq qlen <= nq (q_period t) -> rounded_down (nq qlen) (nq (q_period t)) (nq (q_period t'))) /\
    (if dl then nq qlen <= nq (q_deadline t) -> rounded_down (nq qlen) (nq (q_deadline t)) (nq (q_deadline t')) else q_deadline t' = q_deadline t) /\
    (0 < nq (q_period t') -> 0 < nq (q_deadline t') -> fits_strict (q_cost t') (nq (q_period t')) (nq (q_deadline t')))) ts ts'.
Proof.
  intros qlen ts dl ts' Hq H. apply charge_all_done in H. eapply F2_impl; [|exact H]. clear - Hq. intros t t' H. cbv beta in H.
  destruct (round_down qlen (q_period t)) as [p|] eqn:P; [|discriminate].
  destruct dl.
  - destruct (round_down qlen (q_deadline t)) as [d|] eqn:D; [|discriminate].
    pose proof (check_ge_fits _ _ H) as F. apply check_ge_done in H. destruct H as [-> _]. cbn [q_cost q_period q_deadline] in *.
    split; [reflexivity|]. split; [eapply round_down_le; eassumption|]. split; [eapply round_down_le; eassumption|].
    split; [intros; eapply round_down_exact; eassumption|]. split; [intros; eapply round_down_exact; eassumption|assumption].
  - pose proof (check_ge_fits _ _ H) as F. apply check_ge_done in H. destruct H as [-> _]. cbn [q_cost q_period q_deadline] in *.
    split; [reflexivity|]. split; [eapply round_down_le; eassumption|]. split; [apply Qle_refl|].
    split; [intros; eapply round_down_exact; eassumption|]. split; [reflexivity|assumption].
Qed.

Lemma delayed_done : forall delay ts ts', account_for_delayed_release delay ts = Done ts' ->
  Forall2 (fun t t' => q_cost t' = q_cost t /\ nq (q_period t') == nq (q_period t) - nq delay /\ nq (q_deadline t') == nq (q_deadline t) - nq delay /\
    (0 < nq (q_period t') -> 0 < nq (q_deadline t') -> fits_strict (q_cost t') (nq (q_period t')) (nq (q_deadline t')))) ts ts'.
Proof.
  intros delay ts ts' H. apply charge_all_done in H. eapply F2_impl; [|exact H]. clear. intros t t' H. cbv beta in H.
  pose proof (check_ge_fits _ _ H) as F. apply check_ge_done in H. destruct H as [-> _]. cbn [q_cost q_period q_deadline] in *.
  split; [reflexivity|]. split; [apply nsub_q|]. split; [apply nsub_q|assumption].
Qed.

(** ** pfair.py *)
Definition pf_eff (o : pf_overheads) (ded : bool) (n : Q) : Q :=
  nq (p_qlen o) - nq (p_ev_lat o) - p_tick o - p_sched o - p_cxs o - p_cpmd o - (if ded then 0 else (n - 1) * nq (p_rel o)).
Definition pf_delay (o : pf_overheads) (m : Z) (staggered aligned : bool) : Q :=
  (if aligned then 0 else nq (p_qlen o) + nq (p_ev_lat o) + nq (p_rel o)) +
  (if staggered then (nq (p_qlen o) - 1) / nq (p_qlen o) * inject_Z m else 0).

Lemma F2_compose : forall A B C (P : A -> B -> Prop) (R : B -> C -> Prop) l1 l2 l3, Forall2 P l1 l2 -> Forall2 R l2 l3 -> Forall2 (fun a c => exists b, P a b /\ R b c) l1 l3.
Proof.
  intros A B C P R l1 l2 l3 H. revert l3. induction H as [|a b l1 l2 H1 H2 IH]; intros l3 H3; inversion H3; subst; constructor.
  - exists b. split; assumption.
  - apply IH. assumption.
Qed.

Definition pf_charged (o : pf_overheads) (m : Z) (ded staggered aligned : bool) (n : Q) (t t' : qtask) : Prop :=
  (exists k, quanta_needed (pf_eff o ded n) (q_cost t) k /\ q_cost t' == inject_Z k * nq (p_qlen o)) /\
  nq (q_period t') <= nq (q_period t) - pf_delay o m staggered aligned /\ nq (q_deadline t') <= nq (q_deadline t) - pf_delay o m staggered aligned /\
  (nq (p_qlen o) <= nq (q_period t) - pf_delay o m staggered aligned ->
     rounded_down (nq (p_qlen o)) (nq (q_period t) - pf_delay o m staggered aligned) (nq (q_period t'))) /\
  (nq (p_qlen o) <= nq (q_deadline t) - pf_delay o m staggered aligned ->
     rounded_down (nq (p_qlen o)) (nq (q_deadline t) - pf_delay o m staggered aligned) (nq (q_deadline t'))) /\
  (0 < nq (q_period t') -> 0 < nq (q_deadline t') -> fits_strict (q_cost t') (nq (q_period t')) (nq (q_deadline t'))).

Lemma quanta_needed_eq : forall e e' c k, e == e' -> quanta_needed e c k -> quanta_needed e' c k.
Proof. intros e e' c k E [A B]. split; [rewrite <- E; assumption|]. intros j Hj. apply B. rewrite E. assumption. Qed.
Lemma rounded_down_eq : forall q y y' x, y == y' -> rounded_down q y x -> rounded_down q y' x.
Proof. intros q y y' x E [A [B C]]. split; [assumption|]. split; rewrite <- E; assumption. Qed.

Lemma pfair_done : forall o m ded ts stg total aligned ts', ts <> [] ->
  pfair_charge (Some o) m ded ts stg total aligned = Done ts' ->
  0 < pf_eff o ded (ntasks ts) /\ 0 < nq (p_qlen o) /\
  Forall2 (pf_charged o (match total with Some c => c | None => m end) ded stg aligned (ntasks ts)) ts ts'.
Proof.
  intros o m ded ts stg total aligned ts' Hn H. unfold pfair_charge in H. destruct ts as [|t0 ts0]; [contradiction|].
  remember (t0 :: ts0) as ts eqn:Ets. clear Ets t0 ts0 Hn. cbv zeta in H.
  assert (EFF : (if ded then nq (p_qlen o) - nq (p_ev_lat o) - p_tick o - p_sched o - p_cxs o - p_cpmd o
     else nq (p_qlen o) - nq (p_ev_lat o) - p_tick o - p_sched o - p_cxs o - p_cpmd o - (ntasks ts - 1) * nq (p_rel o)) == pf_eff o ded (ntasks ts))
    by (unfold pf_eff; destruct ded; ring).
  set (eff := if ded then _ else _) in *. destruct (Qle_bool eff 0) eqn:E0; [discriminate|].
  destruct (quantize_wcet (p_qlen o) ts (Some eff)) as [ts1| |] eqn:E1; try discriminate.
  set (tot := match total with Some c => c | None => m end) in *.
  assert (DEL : nq (if stg then nadd (if aligned then NI 0 else nadd (nadd (p_qlen o) (p_ev_lat o)) (p_rel o)) (NF (stagger_latency (inject_Z tot) (nq (p_qlen o))))
     else if aligned then NI 0 else nadd (nadd (p_qlen o) (p_ev_lat o)) (p_rel o)) == pf_delay o tot stg aligned).
  { unfold pf_delay, stagger_latency. destruct stg, aligned; rewrite ?nadd_q; cbn [nq]; try rewrite !nadd_q; unfold inject_Z; ring. }
  set (delay := if stg then _ else _) in *.
  destruct (account_for_delayed_release delay ts1) as [ts2| |] eqn:E2; try discriminate.
  apply quantize_wcet_done in E1. destruct E1 as [P1 [P2 E1]]. split; [rewrite <- EFF; assumption|]. split; [assumption|].
  apply delayed_done in E2. apply quantize_period_done in H; [|assumption].
  pose proof (F2_compose _ _ _ _ _ _ _ _ (F2_compose _ _ _ _ _ _ _ _ E1 E2) H) as C. eapply F2_impl; [|exact C]. clear - EFF DEL.
  intros t t3 [t2 [[t1 [[[k [K1 K2]] [A1 [A2 _]]] [B1 [B2 [B3 _]]]]] [C1 [C2 [C3 [C4 [C5 C6]]]]]]].
  rewrite A1 in B2. rewrite A2 in B3. assert (B2' : nq (q_period t2) == nq (q_period t) - pf_delay o tot stg aligned) by (rewrite B2, DEL; reflexivity).
  assert (B3' : nq (q_deadline t2) == nq (q_deadline t) - pf_delay o tot stg aligned) by (rewrite B3, DEL; reflexivity).
  unfold pf_charged. split; [|split; [lra|split; [lra|split; [|split; [|exact C6]]]]].
  - exists k. split; [eapply quanta_needed_eq; eassumption|]. rewrite C1, B1. assumption.
  - intros L. eapply rounded_down_eq; [exact B2'|]. apply C4. lra.
  - intros L. eapply rounded_down_eq; [exact B3'|]. apply C5. lra.
Qed.
