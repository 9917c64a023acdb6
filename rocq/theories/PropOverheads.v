(** C25 (overhead accounting never makes a task set look easier) and C26
    (quantum-based parameters are rounded in the safe direction). *)
From Coq Require Import ZArith QArith Qround Lqa List Bool Lia.
From Verif Require Import Base ModelTasks ModelOverheads SpecOverheads ProofPwl ProofOverheads ProofOverheadsQ ProofOverheadsL.
Import ListNotations.
Open Scope Q_scope.

(** ** C25, jlfp.py *)

(** charge_scheduling_overheads never lowers a cost nor raises a period or
    deadline, and each task that remains fits its period and deadline *)
Theorem C25_jlfp_safe : forall o m ded ts ts', nonneg_overheads o -> Forall (fun t => 0 < o_period t /\ 0 <= o_cost t /\ 0 <= o_wss t) ts ->
  jlfp_charge (Some o) m ded ts = Done ts' ->
  Forall2 (fun t t' => harder (o_cost t) (o_period t) (o_deadline t) (o_cost t') (o_period t') (o_deadline t') /\
    (0 < o_period t' -> 0 < o_deadline t' -> fits (o_cost t') (o_period t') (o_deadline t'))) ts ts'.
Proof. exact jlfp_harder. Qed.
Print Assumptions C25_jlfp_safe.

(** the exact charge: two scheduling decisions, the cache-related delay, the
    interrupts of two preemptions, all stretched by the interrupt load, plus the
    IPI; periods and deadlines are shortened by the release latency *)
Theorem C25_jlfp_charge : forall o m ded ts ts', jlfp_charge (Some o) m ded ts = Done ts' ->
  irq_util o ded ts < 1 /\
  Forall2 (fun p t' => jlfp_charged o m ded ts p t' /\ (0 < o_period t' -> 0 < o_deadline t' -> fits (o_cost t') (o_period t') (o_deadline t')))
    (combine (seq 0 (length ts)) ts) ts'.
Proof. exact jlfp_done. Qed.
Print Assumptions C25_jlfp_charge.

(** a set is accepted if all charged parameters fit *)
Theorem C25_jlfp_accepts : forall o m ded ts, 0 < quantum_length o -> Forall (fun t => 0 < o_period t) ts -> irq_util o ded ts < 1 ->
  Forall (fun p => release_latency o (ntasks ts) < o_period (snd p) /\ release_latency o (ntasks ts) < o_deadline (snd p) /\
    fits (jlfp_cost o m ded ts (fst p) (snd p)) (o_period (snd p) - release_latency o (ntasks ts)) (o_deadline (snd p) - release_latency o (ntasks ts)))
    (combine (seq 0 (length ts)) ts) ->
  exists ts', jlfp_charge (Some o) m ded ts = Done ts'.
Proof. exact jlfp_intro. Qed.
Print Assumptions C25_jlfp_accepts.

(** without overheads nothing changes *)
Theorem C25_jlfp_zero : forall q m ded ts, 0 < q -> Forall (fun t => 0 < o_period t /\ 0 < o_deadline t /\ fits (o_cost t) (o_period t) (o_deadline t)) ts ->
  exists ts', jlfp_charge (Some (zero_overheads q)) m ded ts = Done ts' /\
  Forall2 (fun t t' => o_cost t' == o_cost t /\ o_period t' == o_period t /\ o_deadline t' == o_deadline t) ts ts'.
Proof. exact jlfp_zero. Qed.
Print Assumptions C25_jlfp_zero.

(** larger overheads: if the set passes with the larger overheads it passes with
    the smaller ones, with no harder parameters *)
Theorem C25_jlfp_mono : forall o1 o2 m ded ts ts2, nonneg_overheads o1 -> larger_overheads o1 o2 -> Forall (fun t => 0 < o_period t /\ 0 <= o_cost t /\ 0 <= o_wss t) ts ->
  Forall (fun t => release_latency o2 (ntasks ts) < o_period t /\ release_latency o2 (ntasks ts) < o_deadline t) ts ->
  jlfp_charge (Some o2) m ded ts = Done ts2 ->
  exists ts1, jlfp_charge (Some o1) m ded ts = Done ts1 /\
  Forall2 (fun t1 t2 => harder (o_cost t1) (o_period t1) (o_deadline t1) (o_cost t2) (o_period t2) (o_deadline t2)) ts1 ts2.
Proof. exact jlfp_mono. Qed.
Print Assumptions C25_jlfp_mono.

(** the cache-related delay charged to a task covers every other task's and is
    that of another task (zero for a single task) *)
Theorem C25_cpmd_covers : forall o ts i j t, monotone (cache_affinity_loss o) -> nth_error ts j = Some t -> i <> j -> (i < length ts)%nat ->
  cache_affinity_loss o (o_wss t) <= cpmd_of o ts i.
Proof. exact cpmd_covers. Qed.
Print Assumptions C25_cpmd_covers.
Theorem C25_cpmd_caused : forall o ts i, (i < length ts)%nat ->
  (length ts = 1%nat /\ cpmd_of o ts i = 0) \/ exists j t, j <> i /\ nth_error ts j = Some t /\ cpmd_of o ts i = cache_affinity_loss o (o_wss t).
Proof. exact cpmd_caused. Qed.
Print Assumptions C25_cpmd_caused.

(** charge_initial_load *)
Theorem C25_initial_load : forall o ts ts', charge_initial_load (Some o) ts = Done ts' ->
  Forall2 (fun t t' => o_cost t' == o_cost t + initial_cache_load o (o_wss t) /\ 0 <= initial_cache_load o (o_wss t) /\
    o_period t' = o_period t /\ o_deadline t' = o_deadline t /\
    (0 < o_period t' -> 0 < o_deadline t' -> fits (o_cost t') (o_period t') (o_deadline t'))) ts ts'.
Proof. exact initial_load_done. Qed.
Print Assumptions C25_initial_load.

(** quantize_params makes the parameters integral in the safe direction *)
Theorem C25_jlfp_integral : forall ts ts', jlfp_quantize ts = Done ts' ->
  Forall2 (fun t t' => rounded_up 1 (o_cost t) (o_cost t') /\ rounded_down 1 (o_period t) (o_period t') /\ rounded_down 1 (o_deadline t) (o_deadline t') /\
    (0 <= o_period t -> 0 <= o_deadline t -> 1 <= o_period t' /\ 1 <= o_deadline t' /\ fits (o_cost t') (o_period t') (o_deadline t'))) ts ts'.
Proof. exact jlfp_quantize_done. Qed.
Print Assumptions C25_jlfp_integral.

Definition ex_oh : overheads := Overheads 1000 (fun _ => 2) (fun n => 3 + n) (fun _ => 4) (fun _ => 1) (fun _ => 5) (fun _ => 6)
  (fun _ => 1) (fun _ => 1) (fun _ => 1) (fun _ => 1) (fun _ => 1) (fun _ => 1) (fun w => 2 * w) (fun w => w).
Definition ex_ts : list otask := [OTask 100 1000 1000 7 false None; OTask 200 2000 1500 9 false None; OTask 50 500 400 8 true (Some 3)].

Definition done {A} (r : charged A) : bool := match r with Done _ => true | _ => false end.

(** a set that is charged, integral afterwards, and the whole chain succeeds *)
Example C25_jlfp_case :
  match jlfp_charge (Some ex_oh) 4 false ex_ts with
  | Done ts' => match jlfp_quantize ts' with Done ts'' => map (fun t => (o_cost t, o_period t, o_deadline t)) ts'' | _ => [] end
  | _ => []
  end = [(162, 994, 994); (261, 1994, 1494); (112, 494, 394)].
Proof. vm_compute. reflexivity. Qed.

(** the interrupts use the whole processor: ZeroDivisionError instead of False *)
Theorem C25_full_interrupt_load_refuted : exists o ts, 
  Forall (fun t => 0 < o_period t /\ 0 <= o_cost t) ts /\ irq_util o true ts == 1 /\ jlfp_charge (Some o) 1 true ts = Raised.
Proof.
  exists (Overheads 10 (fun _ => 0) (fun _ => 0) (fun _ => 0) (fun _ => 0) (fun _ => 10) (fun _ => 0) (fun _ => 0) (fun _ => 0) (fun _ => 0) (fun _ => 0) (fun _ => 0) (fun _ => 0) (fun _ => 0) (fun _ => 0)),
    [OTask 1 10 10 0 false None].
  split; [constructor; [cbn [o_period o_cost]; lra|constructor]|]. split; vm_compute; reflexivity.
Qed.
Print Assumptions C25_full_interrupt_load_refuted.

(** a release latency above the period leaves a negative period, which is accepted *)
Theorem C25_negative_period_refuted : exists o ts ts', Forall (fun t => 0 < o_period t /\ 0 <= o_cost t /\ fits (o_cost t) (o_period t) (o_deadline t)) ts /\
  jlfp_charge (Some o) 1 true ts = Done ts' /\ exists t, In t ts' /\ o_period t < 0 /\ ~ fits (o_cost t) (o_period t) (o_deadline t).
Proof.
  exists (Overheads 10 (fun _ => 0) (fun _ => 0) (fun _ => 0) (fun _ => 0) (fun _ => 0) (fun _ => 20) (fun _ => 0) (fun _ => 0) (fun _ => 0) (fun _ => 0) (fun _ => 0) (fun _ => 0) (fun _ => 0) (fun _ => 0)),
    [OTask 1 10 10 0 false None].
  eexists. split; [constructor; [unfold fits; cbn [o_period o_cost o_deadline]; lra|constructor]|]. split; [vm_compute; reflexivity|].
  eexists. split; [left; reflexivity|]. cbn [o_period o_cost o_deadline]. split; [reflexivity|]. intros [C _]. apply C. reflexivity.
Qed.
Print Assumptions C25_negative_period_refuted.

(** ** C25, fp.py *)

(** the result starts with a pseudo task per interrupt source, followed by the
    tasks with raised cost and jitter and unchanged periods and deadlines *)
Theorem C25_fp_charge : forall o x ded ts, ts <> [] ->
  exists ticks rels ts', fp_charge (Some o) x ded ts = ticks ++ rels ++ ts' /\
  (if negb (Qle_bool (tick o x) 0) then exists t, ticks = [t] /\ tick_isr o x t else ticks = []) /\
  (if negb ded && negb (Qle_bool (release o x) 0) then Forall2 (release_isr o x) ts rels else rels = []) /\
  Forall2 (fun t t' => o_cost t' == o_cost t + 2 * (schedule o x + ctx_switch o x) + cache_affinity_loss o x /\
    o_period t' = o_period t /\ o_deadline t' = o_deadline t /\
    exists j, o_jitter t' = Some j /\ j == oj t + release_latency o x + release o x + (if ded then ipi_latency o x else 0)) ts ts'.
Proof. exact fp_charge_done. Qed.
Print Assumptions C25_fp_charge.
Theorem C25_fp_zero : forall q x ded ts, Forall2 (fun t t' => o_cost t' == o_cost t /\ o_period t' = o_period t /\ o_deadline t' = o_deadline t /\ oj t' == oj t)
  ts (fp_charge (Some (zero_overheads q)) x ded ts).
Proof. exact fp_zero. Qed.
Print Assumptions C25_fp_zero.

Lemma fp_safe : forall o x ded ts ts', nonneg_overheads o -> 0 <= x -> fp_charge (Some o) x ded ts = ts' ->
  exists isrs us, ts' = isrs ++ us /\
  Forall2 (fun t t' => harder (o_cost t) (o_period t) (o_deadline t) (o_cost t') (o_period t') (o_deadline t') /\ oj t <= oj t') ts us.
Proof.
  intros o x ded ts ts' Ho Px H. destruct ts as [|t0 ts0].
  - exists [], []. cbn in H. subst. split; [reflexivity|constructor].
  - assert (Hn : t0 :: ts0 <> []) by discriminate. destruct (fp_charge_done o x ded _ Hn) as [tk [rl [us [E [_ [_ F]]]]]]. exists (tk ++ rl), us.
    rewrite <- H, E, app_assoc. split; [reflexivity|]. eapply F2_impl; [|exact F]. intros t t' [C [P [D [j [J Ej]]]]].
    destruct Ho as [_ [Hx [_ Hw]]]. destruct (Hx x Px) as [N1 [N2 [N3 [N4 [N5 N6]]]]]. destruct (Hw x Px) as [W1 _]. unfold harder. rewrite C, P, D.
    split; [split; [lra|split; apply Qle_refl]|]. unfold oj at 2. rewrite J, Ej. destruct ded; lra.
Qed.
(** costs and jitter never decrease, periods and deadlines never grow *)
Theorem C25_fp_safe : forall o x ded ts ts', nonneg_overheads o -> 0 <= x -> fp_charge (Some o) x ded ts = ts' ->
  exists isrs us, ts' = isrs ++ us /\
  Forall2 (fun t t' => harder (o_cost t) (o_period t) (o_deadline t) (o_cost t') (o_period t') (o_deadline t') /\ oj t <= oj t') ts us.
Proof. exact fp_safe. Qed.
Print Assumptions C25_fp_safe.

Theorem C25_fp_integral : forall ts ts', fp_quantize ts = Done ts' ->
  Forall2 (fun t t' => rounded_up 1 (o_cost t) (o_cost t') /\ rounded_down 1 (o_period t) (o_period t') /\ rounded_down 1 (o_deadline t) (o_deadline t') /\
    (exists j j', o_jitter t = Some j /\ o_jitter t' = Some j' /\ rounded_up 1 j j') /\
    (0 <= o_period t -> 0 <= o_deadline t -> 1 <= o_period t' /\ 1 <= o_deadline t' /\ fits (o_cost t') (o_period t') (o_deadline t'))) ts ts'.
Proof. exact fp_quantize_done. Qed.
Print Assumptions C25_fp_integral.

Example C25_fp_case : map (fun t => (o_cost t, o_period t, o_deadline t, o_jitter t)) (fp_charge (Some ex_oh) 3 false ex_ts) =
  [(5, 1000, 1000, Some 6); (4, 1000, 1000, Some 6); (4, 2000, 2000, Some 6); (4, 500, 500, Some 6);
   (120, 1000, 1000, Some 10); (220, 2000, 1500, Some 10); (70, 500, 400, Some 13)].
Proof. vm_compute. reflexivity. Qed.

(** a task whose period becomes zero raises ZeroDivisionError (no test for zero as in jlfp.py) *)
Theorem C25_fp_vanishing_refuted : exists t, 0 < o_period t /\ fp_quantize [t] = Raised /\ jlfp_quantize [t] = Rejected.
Proof. exists (OTask (1 # 4) (1 # 2) (1 # 2) 0 false (Some 0)). split; [reflexivity|]. split; vm_compute; reflexivity. Qed.
Print Assumptions C25_fp_vanishing_refuted.

(** ** C26, quanta.py *)

(** quantize_wcet: the cost becomes the least number of whole quanta whose
    effective length provides the original cost *)
Theorem C26_wcet : forall qlen ts eff ts', quantize_wcet qlen ts (Some eff) = Done ts' ->
  0 < eff /\ 0 < nq qlen /\
  Forall2 (fun t t' => (exists k, quanta_needed eff (q_cost t) k /\ q_cost t' == inject_Z k * nq qlen) /\
    q_period t' = q_period t /\ q_deadline t' = q_deadline t /\
    (0 < nq (q_period t) -> 0 < nq (q_deadline t) -> fits_strict (q_cost t') (nq (q_period t')) (nq (q_deadline t')))) ts ts'.
Proof. exact quantize_wcet_done. Qed.
Print Assumptions C26_wcet.

Lemma wcet_safe : forall qlen ts eff ts', eff <= nq qlen -> Forall (fun t => 0 <= q_cost t) ts -> quantize_wcet qlen ts (Some eff) = Done ts' ->
  Forall2 (fun t t' => multiple (nq qlen) (q_cost t') /\ q_cost t <= q_cost t') ts ts'.
Proof.
  intros qlen ts eff ts' He Hc H. apply quantize_wcet_done in H. destruct H as [H1 [H2 H]]. induction H as [|t t' ts ts' [[k [K1 K2]] _] _ IH]; constructor.
  - inversion Hc; subst. split; [exists k; assumption|]. rewrite K2. eapply quanta_cost; [|eassumption|eassumption|eassumption]; eassumption.
  - apply IH. inversion Hc; assumption.
Qed.
Theorem C26_wcet_safe : forall qlen ts eff ts', eff <= nq qlen -> Forall (fun t => 0 <= q_cost t) ts -> quantize_wcet qlen ts (Some eff) = Done ts' ->
  Forall2 (fun t t' => multiple (nq qlen) (q_cost t') /\ q_cost t <= q_cost t') ts ts'.
Proof. exact wcet_safe. Qed.
Print Assumptions C26_wcet_safe.

Lemma wcet_rounded : forall qlen ts ts', quantize_wcet qlen ts None = Done ts' ->
  Forall2 (fun t t' => rounded_up (nq qlen) (q_cost t) (q_cost t') /\ q_period t' = q_period t /\ q_deadline t' = q_deadline t) ts ts'.
Proof.
  intros qlen ts ts' H. change (quantize_wcet qlen ts None) with (quantize_wcet qlen ts (Some (nq qlen))) in H.
  apply quantize_wcet_done in H. destruct H as [H1 [H2 H]]. eapply F2_impl; [|exact H]. intros t t' [[k [K1 K2]] [P [D _]]].
  split; [|split; assumption]. destruct (quanta_rounded _ _ _ H2 K1) as [A [B C]]. split; [exists k; assumption|]. split; rewrite K2; assumption.
Qed.
(** without overheads in the quanta the cost is rounded up by less than a quantum *)
Theorem C26_wcet_rounded : forall qlen ts ts', quantize_wcet qlen ts None = Done ts' ->
  Forall2 (fun t t' => rounded_up (nq qlen) (q_cost t) (q_cost t') /\ q_period t' = q_period t /\ q_deadline t' = q_deadline t) ts ts'.
Proof. exact wcet_rounded. Qed.
Print Assumptions C26_wcet_rounded.

(** quantize_period: periods (and deadlines) of at least one quantum are rounded
    down to a multiple, and none grows *)
Theorem C26_period : forall qlen ts dl ts', 0 < nq qlen -> quantize_period qlen ts dl = Done ts' ->
  Forall2 (fun t t' => q_cost t' = q_cost t /\ nq (q_period t') <= nq (q_period t) /\ nq (q_deadline t') <= nq (q_deadline t) /\
    (nq qlen <= nq (q_period t) -> rounded_down (nq qlen) (nq (q_period t)) (nq (q_period t'))) /\
    (if dl then nq qlen <= nq (q_deadline t) -> rounded_down (nq qlen) (nq (q_deadline t)) (nq (q_deadline t')) else q_deadline t' = q_deadline t) /\
    (0 < nq (q_period t') -> 0 < nq (q_deadline t') -> fits_strict (q_cost t') (nq (q_period t')) (nq (q_deadline t')))) ts ts'.
Proof. exact quantize_period_done. Qed.
Print Assumptions C26_period.

(** the exceptions are integral periods that divide the quantum length *)
Theorem C26_period_exceptions : forall qlen p p', 0 < nq qlen -> round_down qlen p = Some p' ->
  rounded_down (nq qlen) (nq p) (nq p') \/ (p' = p /\ exists a b, qlen = NI a /\ p = NI b /\ (b | a)%Z).
Proof. exact round_down_some. Qed.
Print Assumptions C26_period_exceptions.

(** a period of half a quantum is left as it is: not a multiple of the quantum *)
Theorem C26_short_period_refuted : exists qlen t t', 0 < nq qlen /\ 0 < nq (q_period t) /\ quantize_period qlen [t] true = Done [t'] /\
  ~ multiple (nq qlen) (nq (q_period t')).
Proof.
  exists (NI 10), (QTask 1 (NI 5) (NI 5)), (QTask 1 (NI 5) (NI 5)). split; [reflexivity|]. split; [reflexivity|]. split; [vm_compute; reflexivity|].
  intros [k K]. cbn [nq q_period] in K. rewrite <- inject_Z_mult in K. apply (proj1 (inject_Z_injective _ _)) in K. lia.
Qed.
Print Assumptions C26_short_period_refuted.

(** a period that vanishes: a float period below the quantum length becomes zero,
    and the density computation raises ZeroDivisionError instead of a report *)
Theorem C26_vanishing_period_refuted : exists qlen t, 0 < nq qlen /\ 0 < nq (q_period t) /\ 0 <= q_cost t /\ quantize_period qlen [t] true = Raised.
Proof. exists (NI 10), (QTask 1 (NI 7) (NI 7)). split; [reflexivity|]. split; [reflexivity|]. split; [vm_compute; discriminate|vm_compute; reflexivity]. Qed.
Print Assumptions C26_vanishing_period_refuted.

Theorem C26_delayed_release : forall delay ts ts', account_for_delayed_release delay ts = Done ts' ->
  Forall2 (fun t t' => q_cost t' = q_cost t /\ nq (q_period t') == nq (q_period t) - nq delay /\ nq (q_deadline t') == nq (q_deadline t) - nq delay /\
    (0 < nq (q_period t') -> 0 < nq (q_deadline t') -> fits_strict (q_cost t') (nq (q_period t')) (nq (q_deadline t')))) ts ts'.
Proof. exact delayed_done. Qed.
Print Assumptions C26_delayed_release.

Lemma staggering : forall qlen m ts ts', account_for_staggering qlen m ts = Done ts' -> 1 <= m -> 0 <= qlen ->
  Forall2 (fun t t' => q_cost t' = q_cost t /\ nq (q_period t') == nq (q_period t) - (qlen - qlen / m) /\ nq (q_deadline t') == nq (q_deadline t) - (qlen - qlen / m)) ts ts'.
Proof.
  intros qlen m ts ts' H Hm Hq. unfold account_for_staggering in H. destruct (Qeq_bool m 0); [discriminate|]. apply delayed_done in H.
  eapply F2_impl; [|exact H]. intros t t' [A [B [C _]]]. cbn [nq] in B, C. split; [assumption|]. rewrite B, C. unfold stagger_latency. split; field; lra.
Qed.
(** account_for_staggering: the quanta of the last processor start 1/m of a quantum before those of the first *)
Theorem C26_staggering : forall qlen m ts ts', account_for_staggering qlen m ts = Done ts' -> 1 <= m -> 0 <= qlen ->
  Forall2 (fun t t' => q_cost t' = q_cost t /\ nq (q_period t') == nq (q_period t) - (qlen - qlen / m) /\ nq (q_deadline t') == nq (q_deadline t) - (qlen - qlen / m)) ts ts'.
Proof. exact staggering. Qed.
Print Assumptions C26_staggering.

(** a delay above the period leaves a negative period, which is accepted *)
Theorem C26_negative_period_refuted : exists delay t t', 0 < nq (q_period t) /\ 0 < q_cost t /\ account_for_delayed_release delay [t] = Done [t'] /\ nq (q_period t') < 0.
Proof. exists (NI 30), (QTask 5 (NI 20) (NI 20)), (QTask 5 (NI (-10)) (NI (-10))). repeat split; vm_compute; reflexivity. Qed.
Print Assumptions C26_negative_period_refuted.

Definition ex_q : list qtask := [QTask 15 (NI 105) (NI 97); QTask (7 # 2) (NF (81 # 2)) (NI 40)].
Example C26_case : quantize_wcet (NI 10) ex_q None = Done [QTask 20 (NI 105) (NI 97); QTask 10 (NF (81 # 2)) (NI 40)] /\
  quantize_wcet (NI 10) ex_q (Some 7) = Done [QTask 30 (NI 105) (NI 97); QTask 10 (NF (81 # 2)) (NI 40)] /\
  quantize_period (NI 10) ex_q true = Done [QTask 15 (NI 100) (NI 90); QTask (7 # 2) (NI 40) (NI 40)] /\
  done (account_for_staggering 10 4 ex_q) = true.
Proof. repeat split; vm_compute; reflexivity. Qed.

(** ** C25, pfair.py *)
Theorem C25_pfair_charge : forall o m ded ts stg total aligned ts', ts <> [] ->
  pfair_charge (Some o) m ded ts stg total aligned = Done ts' ->
  0 < pf_eff o ded (ntasks ts) /\ 0 < nq (p_qlen o) /\
  Forall2 (pf_charged o (match total with Some c => c | None => m end) ded stg aligned (ntasks ts)) ts ts'.
Proof. exact pfair_done. Qed.
Print Assumptions C25_pfair_charge.

Definition nonneg_pf (o : pf_overheads) : Prop :=
  0 <= nq (p_ev_lat o) /\ 0 <= nq (p_rel o) /\ 0 <= p_tick o /\ 0 <= p_sched o /\ 0 <= p_cxs o /\ 0 <= p_cpmd o.

Lemma pfair_safe : forall o m ded ts stg total aligned ts', nonneg_pf o -> Forall (fun t => 0 <= q_cost t) ts ->
  (stg = true -> 1 <= nq (p_qlen o) /\ (0 <= match total with Some c => c | None => m end)%Z) ->
  pfair_charge (Some o) m ded ts stg total aligned = Done ts' ->
  Forall2 (fun t t' => multiple (nq (p_qlen o)) (q_cost t') /\
    harder (q_cost t) (nq (q_period t)) (nq (q_deadline t)) (q_cost t') (nq (q_period t')) (nq (q_deadline t')) /\
    (0 < nq (q_period t') -> 0 < nq (q_deadline t') -> fits_strict (q_cost t') (nq (q_period t')) (nq (q_deadline t')))) ts ts'.
Proof.
  intros o m ded ts stg total aligned ts' Ho Hc Hs H. destruct ts as [|t0 ts0]; [cbn in H; injection H as <-; constructor|].
  assert (Hn : t0 :: ts0 <> []) by discriminate. apply pfair_done in H; [|assumption]. remember (t0 :: ts0) as ts eqn:Ets. destruct H as [P1 [P2 H]].
  assert (N1 : 1 <= ntasks ts) by (subst ts; unfold ntasks; change 1 with (inject_Z 1); rewrite <- Zle_Qle; cbn [length]; lia).
  set (tot := match total with Some c => c | None => m end) in *. destruct Ho as [O1 [O2 [O3 [O4 [O5 O6]]]]].
  assert (EL : pf_eff o ded (ntasks ts) <= nq (p_qlen o)).
  { unfold pf_eff. assert (0 <= (ntasks ts - 1) * nq (p_rel o)) by (apply Qmult_le_0_compat; lra). destruct ded; lra. }
  assert (DL : 0 <= pf_delay o tot stg aligned).
  { unfold pf_delay. assert (X : 0 <= (if stg then (nq (p_qlen o) - 1) / nq (p_qlen o) * inject_Z tot else 0)).
    { destruct stg; [|apply Qle_refl]. destruct (Hs eq_refl) as [Q1 Q2]. apply Qmult_le_0_compat; [apply div_nonneg; lra|].
      change 0 with (inject_Z 0). rewrite <- Zle_Qle. assumption. }
    destruct aligned; lra. }
  assert (PP := P1). clear Ets Hn N1 Hs P1. revert H EL PP. generalize (ntasks ts). intros n H EL PP. revert Hc.
  induction H as [|t t' l l' [[k [K1 K2]] [A [B [_ [_ F]]]]] _ IH]; intros Hc; constructor.
  - inversion Hc; subst. split; [exists k; assumption|]. split; [|assumption]. unfold harder. split; [|split; lra]. rewrite K2. eapply quanta_cost; [|eassumption|eassumption|eassumption]; eassumption.
  - apply IH. inversion Hc; assumption.
Qed.
(** accounting for overheads of quantum-based scheduling *)
Theorem C25_pfair_safe : forall o m ded ts stg total aligned ts', nonneg_pf o -> Forall (fun t => 0 <= q_cost t) ts ->
  (stg = true -> 1 <= nq (p_qlen o) /\ (0 <= match total with Some c => c | None => m end)%Z) ->
  pfair_charge (Some o) m ded ts stg total aligned = Done ts' ->
  Forall2 (fun t t' => multiple (nq (p_qlen o)) (q_cost t') /\
    harder (q_cost t) (nq (q_period t)) (nq (q_deadline t)) (q_cost t') (nq (q_period t')) (nq (q_deadline t')) /\
    (0 < nq (q_period t') -> 0 < nq (q_deadline t') -> fits_strict (q_cost t') (nq (q_period t')) (nq (q_deadline t')))) ts ts'.
Proof. exact pfair_safe. Qed.
Print Assumptions C25_pfair_safe.

Definition ex_pf : pf_overheads := PfOverheads (NI 1000) (NI 5) (NI 4) 10 20 6 55.
Example C25_pfair_case : nonneg_pf ex_pf /\
  pfair_charge (Some ex_pf) 4 false [QTask 2000 (NI 20500) (NI 20500); QTask 850 (NI 10000) (NI 9999)] false None false =
    Done [QTask 3000 (NI 19000) (NI 19000); QTask 1000 (NI 8000) (NI 8000)].
Proof. split; [unfold nonneg_pf; cbn; repeat split; vm_compute; discriminate|vm_compute; reflexivity]. Qed.

(** staggered quanta on 4 processors delay a task by three quarters of a quantum;
    the code passes the arguments of stagger_latency in the wrong order and
    charges less than 4 time units for a quantum of 1000 *)
Theorem C25_pfair_staggering_refuted : exists o t t', nonneg_pf o /\ pfair_charge (Some o) 4 true [t] true None true = Done [t'] /\
  nq (q_period t) - nq (p_qlen o) * (3 # 4) < nq (q_period t') /\ nq (q_deadline t) - nq (p_qlen o) * (3 # 4) < nq (q_deadline t').
Proof.
  exists (PfOverheads (NI 1000) (NI 0) (NI 0) 0 0 0 0), (QTask 1000 (NI 10100) (NI 10100)), (QTask 1000 (NI 10000) (NI 10000)).
  split; [unfold nonneg_pf; cbn; repeat split; vm_compute; discriminate|]. split; [vm_compute; reflexivity|]. split; vm_compute; reflexivity.
Qed.
Print Assumptions C25_pfair_staggering_refuted.

Lemma pfair_zero : forall q m ded ts ts', ts <> [] ->
  pfair_charge (Some (PfOverheads q (NI 0) (NI 0) 0 0 0 0)) m ded ts false None true = Done ts' ->
  Forall2 (fun t t' => rounded_up (nq q) (q_cost t) (q_cost t') /\
    (nq q <= nq (q_period t) -> rounded_down (nq q) (nq (q_period t)) (nq (q_period t'))) /\
    (nq q <= nq (q_deadline t) -> rounded_down (nq q) (nq (q_deadline t)) (nq (q_deadline t')))) ts ts'.
Proof.
  intros q m ded ts ts' Hn H. apply pfair_done in H; [|assumption]. destruct H as [P1 [P2 H]]. cbn [p_qlen] in P2.
  assert (D : pf_delay (PfOverheads q (NI 0) (NI 0) 0 0 0 0) m false true == 0) by (unfold pf_delay; ring).
  assert (E : pf_eff (PfOverheads q (NI 0) (NI 0) 0 0 0 0) ded (ntasks ts) == nq q) by (unfold pf_eff; cbn [p_qlen p_ev_lat p_rel p_tick p_sched p_cxs p_cpmd nq]; change (inject_Z 0) with 0; destruct ded; ring).
  eapply F2_impl; [|exact H]. intros t t' [[k [K1 K2]] [_ [_ [A [B _]]]]]. cbn [p_qlen] in *. split; [|split].
  - apply (quanta_needed_eq _ _ _ _ E) in K1. destruct (quanta_rounded _ _ _ P2 K1) as [X [Y Z]]. split; [exists k; assumption|]. split; rewrite K2; assumption.
  - intros L. eapply rounded_down_eq; [|apply A]; rewrite D; lra.
  - intros L. eapply rounded_down_eq; [|apply B]; rewrite D; lra.
Qed.
(** with zero overheads only the rounding to quanta remains *)
Theorem C25_pfair_zero : forall q m ded ts ts', ts <> [] ->
  pfair_charge (Some (PfOverheads q (NI 0) (NI 0) 0 0 0 0)) m ded ts false None true = Done ts' ->
  Forall2 (fun t t' => rounded_up (nq q) (q_cost t) (q_cost t') /\
    (nq q <= nq (q_period t) -> rounded_down (nq q) (nq (q_period t)) (nq (q_period t'))) /\
    (nq q <= nq (q_deadline t) -> rounded_down (nq q) (nq (q_deadline t)) (nq (q_deadline t')))) ts ts'.
Proof. exact pfair_zero. Qed.
Print Assumptions C25_pfair_zero.

(** ** C25, locking.py *)
Theorem C25_spinlock_charge : forall o ts ts', charge_spinlock (Some o) ts = Done ts' ->
  let n := ntasks ts in
  let rc := read_lock o n + read_unlock o n in let wc := lock o n + unlock o n in let sc := syscall_in o n + syscall_out o n in
  Forall2 (fun t t' => rounded_up 1 (qsum (map (spin_cost rc wc sc) (lt_reqs t))) (lt_cost t' - lt_cost t) /\
    lt_suspended t' == lt_suspended t /\ lt_period t' = lt_period t /\ lt_deadline t' = lt_deadline t /\
    Forall2 (spin_charged rc wc) (lt_reqs t) (lt_reqs t') /\
    (0 < lt_period t -> 0 < lt_deadline t -> fits (lt_cost t') (lt_period t') (lt_deadline t'))) ts ts'.
Proof. exact spin_done. Qed.
Print Assumptions C25_spinlock_charge.

Theorem C25_semaphore_charge : forall o pre susp ts ts', charge_semaphore (Some o) pre susp ts = Done ts' ->
  let n := ntasks ts in
  Forall2 (lock_charged (sem_exec o susp n) (if susp then ipi_latency o n else 0)
    (sem_cs o n + (if pre then sem_sched o n else 0)) (if pre then None else Some (sem_cs o n + sem_sched o n))) ts ts'.
Proof. exact semaphore_done. Qed.
Print Assumptions C25_semaphore_charge.

Theorem C25_dpcp_charge : forall o ts ts', charge_dpcp (Some o) ts = Done ts' ->
  let n := ntasks ts in Forall2 (lock_charged (dpcp_exec o n) (2 * ipi_latency o n + dpcp_cs o n) (dpcp_cs o n) None) ts ts'.
Proof. exact dpcp_done. Qed.
Print Assumptions C25_dpcp_charge.

(** no task and no critical section looks easier *)
Definition locks_harder (t t' : ltask) : Prop :=
  harder (lt_cost t) (lt_period t) (lt_deadline t) (lt_cost t') (lt_period t') (lt_deadline t') /\ lt_suspended t <= lt_suspended t' /\
  Forall2 (fun r r' => r_reads r' = r_reads r /\ r_writes r' = r_writes r /\ r_read_length r <= r_read_length r' /\ r_write_length r <= r_write_length r') (lt_reqs t) (lt_reqs t').
Definition counts_ok (t : ltask) : Prop := Forall (fun r => (0 <= r_reads r)%Z /\ (0 <= r_writes r)%Z) (lt_reqs t).

Lemma raised_le : forall c d l l', 0 <= d -> raised c d l l' -> l <= l'.
Proof. intros c d l l' Hd H. unfold raised in H. destruct (c =? 0)%Z; [subst; apply Qle_refl|]. destruct H as [_ [H _]]. lra. Qed.
Lemma rounded_up_nonneg : forall q a b x, 0 <= x -> rounded_up q x (b - a) -> a <= b.
Proof. intros q a b x Hx [_ [H _]]. lra. Qed.
Lemma inj_nonneg : forall z, (0 <= z)%Z -> 0 <= inject_Z z.
Proof. intros z H. change 0 with (inject_Z 0). rewrite <- Zle_Qle. assumption. Qed.

Lemma spinlock_safe : forall o ts ts', nonneg_overheads o -> Forall counts_ok ts -> charge_spinlock (Some o) ts = Done ts' -> Forall2 locks_harder ts ts'.
Proof.
  intros o ts ts' Ho Hc H. apply spin_done in H. cbv zeta in H. destruct Ho as [_ [_ [Hn _]]]. destruct (Hn (ntasks ts) (ntasks_nonneg _ ts)) as [N1 [N2 [N3 [N4 [N5 N6]]]]]. clear Hn.
  revert H N1 N2 N3 N4 N5 N6. generalize (ntasks ts). intros n H N1 N2 N3 N4 N5 N6. revert Hc.
  induction H as [|t t' l l' [A [B [P [D [R F]]]]] _ IH]; intros Hc; constructor.
  - inversion Hc as [|x y H1 H2]; subst. unfold locks_harder, harder. rewrite P, D. split; [split; [|split; apply Qle_refl]|split; [lra|]].
    + eapply rounded_up_nonneg; [|exact A]. clear - H1 N1 N2 N3 N4 N5 N6. unfold counts_ok in H1. induction H1 as [|r rs [Z1 Z2] _ IH]; [apply Qle_refl|].
      cbn [map qsum fold_right]. unfold qsum in IH. apply inj_nonneg in Z1. apply inj_nonneg in Z2.
      assert (0 <= spin_cost (read_lock o n + read_unlock o n) (lock o n + unlock o n) (syscall_in o n + syscall_out o n) r); [|lra].
      unfold spin_cost. assert (0 <= inject_Z (r_reads r) * (read_lock o n + read_unlock o n + (syscall_in o n + syscall_out o n))) by (apply Qmult_le_0_compat; lra).
      assert (0 <= inject_Z (r_writes r) * (lock o n + unlock o n + (syscall_in o n + syscall_out o n))) by (apply Qmult_le_0_compat; lra). lra.
    + eapply F2_impl; [|exact R]. intros r r' [X1 [X2 [_ [X3 X4]]]]. split; [assumption|]. split; [assumption|]. split; eapply raised_le; [|exact X3| |exact X4]; lra.
  - apply IH. inversion Hc; assumption.
Qed.

Lemma nwrites_nonneg : forall t, counts_ok t -> 0 <= nwrites t.
Proof. intros t H. unfold nwrites. apply inj_nonneg. unfold counts_ok in H. induction H as [|r rs [_ Z] _ IH]; cbn [map fold_right]; lia. Qed.

Lemma lock_harder : forall ex su cs local t t', 0 <= ex -> 0 <= su -> 0 <= cs -> counts_ok t -> lock_charged ex su cs local t t' -> locks_harder t t'.
Proof.
  intros ex su cs local t t' H1 H2 H3 Hc [A [B [P [D [R F]]]]]. apply nwrites_nonneg in Hc. unfold locks_harder, harder. rewrite P, D.
  split; [split; [|split; apply Qle_refl]|split].
  - eapply rounded_up_nonneg; [|exact A]. apply Qmult_le_0_compat; assumption.
  - eapply rounded_up_nonneg; [|exact B]. apply Qmult_le_0_compat; assumption.
  - eapply F2_impl; [|exact R]. intros r r' [X1 [X2 [X3 [X4 [X5 _]]]]]. split; [congruence|]. split; [assumption|]. split; [rewrite X4; apply Qle_refl|].
    eapply raised_le; [|exact X5]. assumption.
Qed.
Lemma F2_with : forall A B (P : A -> Prop) (R S : A -> B -> Prop) l l', Forall P l -> Forall2 R l l' -> (forall a b, P a -> R a b -> S a b) -> Forall2 S l l'.
Proof. intros A B P R S l l' H H2 HS. induction H2; constructor; inversion H; subst; auto. Qed.

Lemma semaphore_safe : forall o pre susp ts ts', nonneg_overheads o -> Forall counts_ok ts -> charge_semaphore (Some o) pre susp ts = Done ts' -> Forall2 locks_harder ts ts'.
Proof.
  intros o pre susp ts ts' [_ [Ha [Hn Hw]]] Hc H. apply semaphore_done in H. cbv zeta in H. destruct (Hn (ntasks ts) (ntasks_nonneg _ ts)) as [N1 [N2 [N3 [N4 [N5 N6]]]]].
  destruct (Ha (ntasks ts) (ntasks_nonneg _ ts)) as [M1 [M2 [M3 [M4 [M5 M6]]]]]. destruct (Hw (ntasks ts) (ntasks_nonneg _ ts)) as [W _].
  eapply F2_with; [exact Hc|exact H|]. intros t t' Ht E. eapply lock_harder; [| | |exact Ht|exact E].
  - unfold sem_exec, sem_sched. destruct susp; lra.
  - destruct susp; lra.
  - unfold sem_cs, sem_sched. destruct pre; lra.
Qed.
Lemma dpcp_safe : forall o ts ts', nonneg_overheads o -> Forall counts_ok ts -> charge_dpcp (Some o) ts = Done ts' -> Forall2 locks_harder ts ts'.
Proof.
  intros o ts ts' [_ [Ha [Hn Hw]]] Hc H. apply dpcp_done in H. cbv zeta in H. destruct (Hn (ntasks ts) (ntasks_nonneg _ ts)) as [N1 [N2 [N3 [N4 [N5 N6]]]]].
  destruct (Ha (ntasks ts) (ntasks_nonneg _ ts)) as [M1 [M2 [M3 [M4 [M5 M6]]]]]. destruct (Hw (ntasks ts) (ntasks_nonneg _ ts)) as [W _].
  eapply F2_with; [exact Hc|exact H|]. intros t t' Ht E. eapply lock_harder; [| | |exact Ht|exact E]; unfold dpcp_exec, dpcp_cs, sem_sched; lra.
Qed.
Theorem C25_spinlock_safe : forall o ts ts', nonneg_overheads o -> Forall counts_ok ts -> charge_spinlock (Some o) ts = Done ts' -> Forall2 locks_harder ts ts'.
Proof. exact spinlock_safe. Qed.
Print Assumptions C25_spinlock_safe.
Theorem C25_semaphore_safe : forall o pre susp ts ts', nonneg_overheads o -> Forall counts_ok ts -> charge_semaphore (Some o) pre susp ts = Done ts' -> Forall2 locks_harder ts ts'.
Proof. exact semaphore_safe. Qed.
Print Assumptions C25_semaphore_safe.
Theorem C25_dpcp_safe : forall o ts ts', nonneg_overheads o -> Forall counts_ok ts -> charge_dpcp (Some o) ts = Done ts' -> Forall2 locks_harder ts ts'.
Proof. exact dpcp_safe. Qed.
Print Assumptions C25_dpcp_safe.

Definition ex_lt : list ltask := [LTask 100 1000 1000 0 [Request 0 2 0 (11 # 2) None; Request 0 0 0 0 None]; LTask 200 2000 2000 3 [Request 0 1 0 4 None]].
Definition ex_spin : list ltask := [LTask 100 1000 1000 0 [Request 3 2 (3 # 2) 5 None]].
Example C25_locking_case : nonneg_overheads ex_oh /\
  charge_spinlock (Some ex_oh) ex_spin = Done [LTask 120 1000 1000 0 [Request 3 2 4 7 None]] /\
  done (charge_semaphore (Some ex_oh) true true ex_lt) = true /\ done (charge_semaphore (Some ex_oh) false false ex_lt) = true /\ done (charge_dpcp (Some ex_oh) ex_lt) = true.
Proof.
  split.
  - unfold nonneg_overheads. cbn [ex_oh quantum_length ipi_latency schedule release ctx_switch tick release_latency lock unlock read_lock read_unlock syscall_in syscall_out cache_affinity_loss initial_cache_load].
    split; [lra|]. split; [intros n Hn; repeat split; lra|]. split; [intros n Hn; repeat split; lra|]. intros w Hw. split; lra.
  - repeat split; vm_compute; reflexivity.
Qed.
