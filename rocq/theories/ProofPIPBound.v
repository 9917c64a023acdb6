(** The bounds on the delays of a job under the global priority inheritance protocol. *)
From Coq Require Import NArith ZArith List Bool Lia Arith.
From Verif Require Import Base ModelLocking ModelPIP SpecLocking SpecQueue SpecDPCP SpecFMLPPlus SpecPIP ProofLocking ProofSpin ProofQueue ProofBlame ProofLockingMono ProofGlobal ProofMSRP ProofPIP ProofPIPExec.
Import ListNotations.
Import Base.
Open Scope Z_scope.

Lemma used_by_iff tsk r : used_by tsk r = true <-> exists q, In q (ti_requests tsk) /\ q_res q = r.
Proof.
  unfold used_by. rewrite existsb_exists. split; intros [q [H E]]; exists q; (split; [exact H|]); [apply Nat.eqb_eq; exact E|apply Nat.eqb_eq; exact E].
Qed.

Lemma zs_filter {A} (f : A -> Z) (c : A -> bool) l : zsum (map f (filter c l)) = zsum (map (fun a => if c a then f a else 0) l).
Proof. induction l as [|a l IH]; [reflexivity|]. cbn [filter map Base.zsum]. destruct (c a); cbn [map Base.zsum]; lia. Qed.

Section Job.
Context (info : list taskinfo) (m : nat) (rel comp : nat -> nat -> Z) (sched : Z -> list (nat * nat)) (tr : nat -> list creq) (e : Z).
Hypothesis WF : wf_info info.
Hypothesis PP : pip_params info.
Hypothesis EX : pip_execution info m rel comp sched tr.
Hypothesis OT : on_time info rel comp e.
Context (tsk : taskinfo) (k : nat).
Hypothesis HT : In tsk info.
Hypothesis HM : (0 < m)%nat.
Let i := ti_id tsk.
Let r0 := rel i k.
Hypothesis H0 : r0 <= e <= comp i k.
Hypothesis HL : e - r0 <= Z.of_N (ti_response tsk).
Let prio := ti_prio tsk.
Let LR := px_requests _ _ _ _ _ _ EX.
Let win := zrange r0 e.

Definition blocked_by (sel : creq -> bool) (t : Z) : bool :=
  existsb (fun q => existsb (fun b => (cr_issue b <=? t) && (t <? cr_start b) && existsb (fun a => sel a && executes_cs sched a t) (tr (q_res q)))
    (filter (is_job i k) (tr (q_res q)))) (ti_requests tsk).
Definition hp_sel (a : creq) : bool := (tprio info (cr_task a) <? prio)%N.
Definition lp_sel (a : creq) : bool := (prio <? tprio info (cr_task a))%N.

Lemma own_resource r b : In b (tr r) -> cr_task b = i -> exists q, In q (ti_requests tsk) /\ q_res q = r.
Proof.
  intros HB E. destruct (request_task info m rel comp sched tr WF EX r b HB) as [v [q [HV [EV [HQ [ER _]]]]]].
  assert (v = tsk) by (apply (info_inj info WF); [exact HV|exact HT|unfold i in E; congruence]). subst v. exists q. auto.
Qed.

Lemma blocked_iff sel t : blocked_by sel t = true <-> exists r b a, In b (tr r) /\ cr_task b = i /\ cr_job b = k /\ cr_issue b <= t < cr_start b /\ In a (tr r) /\ sel a = true /\ executes_cs sched a t = true.
Proof.
  unfold blocked_by. rewrite existsb_exists. split.
  - intros [q [HQ H]]. apply existsb_exists in H. destruct H as [b [HB H]]. apply filter_In in HB. destruct HB as [HB J]. apply is_job_iff in J. rewrite !andb_true_iff, Z.leb_le, Z.ltb_lt in H. destruct H as [HW H].
    apply existsb_exists in H. destruct H as [a [HA H]]. apply andb_true_iff in H. exists (q_res q), b, a. tauto.
  - intros [r [b [a [HB [E1 [E2 [HW [HA [HS X]]]]]]]]]. destruct (own_resource r b HB E1) as [q [HQ ER]]. exists q. split; [exact HQ|]. rewrite ER. apply existsb_exists. exists b. split; [apply filter_In; split; [exact HB|apply is_job_iff; auto]|].
    rewrite !andb_true_iff, Z.leb_le, Z.ltb_lt. split; [exact HW|]. apply existsb_exists. exists a. split; [exact HA|]. rewrite HS, X. reflexivity.
Qed.

Lemma pending_job t : r0 <= t < e -> pending rel comp i k t.
Proof. intros H. unfold pending. fold r0. lia. Qed.

(** ** Instants at which no blocking request executes *)
Lemma others t : r0 <= t < e -> ~ In (i, k) (sched t) -> blocked_by hp_sel t = false -> blocked_by lp_sel t = false ->
  length (sched t) = m /\ forall j l, In (j, l) (sched t) -> (tprio info j < prio)%N \/
    ((prio < tprio info j)%N /\ exists r a b, In a (tr r) /\ In b (tr r) /\ cr_task a = j /\ cr_job a = l /\ cr_start a <= t < cr_end a /\ cr_issue b <= t < cr_start b /\ (tprio info (cr_task b) < prio)%N).
Proof.
  intros HW NR NH NL. assert (HI : (i < length info)%nat) by (unfold i; apply nth_error_Some; rewrite (info_nth info WF tsk HT); discriminate).
  assert (TP : tprio info i = prio) by (apply (task_prio info WF); exact HT).
  (* a running job whose priority is raised by another task's request *)
  assert (CL : forall j l, In (j, l) (sched t) -> reaches info tr j l t prio -> (forall r a b, In a (tr r) -> In b (tr r) -> cr_task a = j -> cr_job a = l -> cr_start a <= t < cr_end a -> cr_issue b <= t < cr_start b -> cr_task b <> i) ->
    (tprio info j < prio)%N \/ ((prio < tprio info j)%N /\ exists r a b, In a (tr r) /\ In b (tr r) /\ cr_task a = j /\ cr_job a = l /\ cr_start a <= t < cr_end a /\ cr_issue b <= t < cr_start b /\ (tprio info (cr_task b) < prio)%N)).
  { intros j l HJ RJ NB. destruct (px_running _ _ _ _ _ _ EX t j l HJ) as [BJ [PJ SJ]]. destruct (index_task info WF j BJ) as [u [_ [HU [EU PU]]]].
    assert (NE : tprio info j <> prio).
    { intros E. assert (u = tsk) by (apply (prio_inj info PP); [exact HU|exact HT|unfold prio in E; congruence]). subst u. apply NR. unfold i. rewrite EU.
      rewrite <- EU in PJ. rewrite (pending_unique info m rel comp sched tr e PP EX OT tsk k l t HT ltac:(lia) (pending_job t HW) PJ). exact HJ. }
    destruct RJ as [R|[r [a [b [HA [HB [E1 [E2 [TA [TB PB]]]]]]]]]]; [left; lia|]. destruct (N.lt_trichotomy (tprio info j) prio) as [L|[L|L]]; [left; exact L|contradiction|right].
    split; [exact L|]. exists r, a, b. repeat (split; [assumption|]). specialize (NB r a b HA HB E1 E2 TA TB).
    destruct (request_task info m rel comp sched tr WF EX r b HB) as [v [q [HV [EV _]]]]. assert (PV : tprio info (cr_task b) = ti_prio v) by (rewrite <- EV; apply (task_prio info WF); exact HV).
    assert (ti_prio v <> prio); [|lia]. intros E. apply NB. rewrite <- EV. unfold i. f_equal. apply (prio_inj info PP); assumption. }
  destruct (existsb (fun q => existsb (fun b => (cr_issue b <=? t) && (t <? cr_start b)) (filter (is_job i k) (tr (q_res q)))) (ti_requests tsk)) eqn:SU.
  - (* the job waits *)
    apply existsb_exists in SU. destruct SU as [q [HQ SU]]. apply existsb_exists in SU. destruct SU as [b [HB TB]]. apply filter_In in HB. destruct HB as [HB J]. apply is_job_iff in J. destruct J as [J1 J2].
    apply andb_true_iff in TB. rewrite Z.leb_le, Z.ltb_lt in TB. set (r := q_res q) in *. destruct (px_held _ _ _ _ _ _ EX r b t HB TB) as [a [HA TA]].
    pose proof (request_times info m rel comp sched tr EX r a HA) as QA. pose proof (request_times info m rel comp sched tr EX r b HB) as QB.
    assert (NI : cr_task a <> i).
    { intros E. assert (X : (r, a) = (r, b)) by (apply (outstanding_unique info m rel comp sched tr EX r r a b t); [assumption|assumption|congruence|lia|lia]). injection X as ->. lia. }
    destruct (request_task info m rel comp sched tr WF EX r a HA) as [v [qa [HV [EV _]]]].
    assert (PV : tprio info (cr_task a) = ti_prio v) by (rewrite <- EV; apply (task_prio info WF); exact HV).
    assert (PN : tprio info (cr_task a) <> prio) by (intros E; apply NI; rewrite <- EV; unfold i; f_equal; apply (prio_inj info PP); [assumption|assumption|unfold prio in E; congruence]).
    assert (NX : ~ In (cr_task a, cr_job a) (sched t)).
    { intros X. assert (XC : executes_cs sched a t = true) by (apply executes_cs_iff; auto).
      destruct (N.lt_trichotomy (tprio info (cr_task a)) prio) as [L|[L|L]]; [|contradiction|].
      - assert (blocked_by hp_sel t = true); [|congruence]. apply blocked_iff. exists r, b, a. repeat (split; [assumption|]). split; [unfold hp_sel; apply N.ltb_lt; exact L|exact XC].
      - assert (blocked_by lp_sel t = true); [|congruence]. apply blocked_iff. exists r, b, a. repeat (split; [assumption|]). split; [unfold lp_sel; apply N.ltb_lt; exact L|exact XC]. }
    assert (NS : ~ suspended tr (cr_task a) (cr_job a) t).
    { intros [s [c [HC [E1 [E2 TC]]]]]. pose proof (request_times info m rel comp sched tr EX s c HC). assert (X : (r, a) = (s, c)) by (apply (outstanding_unique info m rel comp sched tr EX r s a c t); [assumption|assumption|congruence|lia|lia]). injection X as -> ->. lia. }
    assert (BA : (cr_task a < length info)%nat) by (rewrite <- EV; apply nth_error_Some; rewrite (info_nth info WF v HV); discriminate).
    destruct (px_schedule _ _ _ _ _ _ EX (cr_task a) (cr_job a) t BA (request_pending info m rel comp sched tr EX r a t HA ltac:(lia)) NS NX) as [LM RS].
    split; [exact LM|]. intros j l HJ. apply (CL j l HJ).
    + apply (RS j l HJ). right. exists r, a, b. rewrite J1, TP. repeat (split; [assumption || reflexivity || lia|]). lia.
    + intros s a' b' HA' HB' E1 E2 TA' TB' EB. pose proof (request_times info m rel comp sched tr EX s b' HB').
      assert (X : (r, b) = (s, b')) by (apply (outstanding_unique info m rel comp sched tr EX r s b b' t); [assumption|assumption|congruence|lia|lia]). injection X as <- <-.
      assert (a' = a) by (apply (holder_unique info m rel comp sched tr EX r a' a t); assumption). subst a'. apply NX. rewrite E1, E2. exact HJ.
  - (* the job is ready *)
    assert (NS : forall r b, In b (tr r) -> cr_task b = i -> cr_job b = k -> cr_issue b <= t < cr_start b -> False).
    { intros r b HB E1 E2 TB. destruct (own_resource r b HB E1) as [q [HQ ER]]. apply not_true_iff_false in SU. apply SU. apply existsb_exists. exists q. split; [exact HQ|]. rewrite ER.
      apply existsb_exists. exists b. split; [apply filter_In; split; [exact HB|apply is_job_iff; auto]|]. apply andb_true_iff. rewrite Z.leb_le, Z.ltb_lt. exact TB. }
    destruct (px_schedule _ _ _ _ _ _ EX i k t HI (pending_job t HW) ltac:(intros [r [b [HB [E1 [E2 TB]]]]]; exact (NS r b HB E1 E2 TB)) NR) as [LM RS].
    split; [exact LM|]. intros j l HJ. apply (CL j l HJ).
    + apply (RS j l HJ). left. lia.
    + intros r a b HA HB E1 E2 TA TB EB. pose proof (request_times info m rel comp sched tr EX r b HB). apply (NS r b HB EB); [|exact TB].
      pose proof (request_pending info m rel comp sched tr EX r b t HB ltac:(lia)) as PB. rewrite EB in PB. symmetry. exact (pending_unique info m rel comp sched tr e PP EX OT tsk k (cr_job b) t HT ltac:(lia) (pending_job t HW) PB).
Qed.

(** ** Blocking by requests of higher priority *)
Lemma direct_higher : cnt (blocked_by hp_sel) win <= Z.of_N (Ihp_i_dsr info tsk).
Proof.
  unfold Ihp_i_dsr. rewrite fold_sum. change (Z.of_N 0) with 0. rewrite Z.add_0_l.
  set (Q := fun u t => existsb (fun q => existsb (fun a => Nat.eqb (cr_task a) (ti_id u) && executes_cs sched a t) (tr (q_res q))) (ti_requests tsk)).
  apply Z.le_trans with (cnt (fun t => existsb (fun u => Q u t) (higher_tasks info tsk)) win).
  - apply cnt_le. intros t _ H. apply blocked_iff in H. destruct H as [r [b [a [HB [E1 [E2 [TB [HA [HS X]]]]]]]]]. destruct (own_resource r b HB E1) as [q [HQ ER]].
    destruct (request_task info m rel comp sched tr WF EX r a HA) as [v [_ [HV [EV _]]]]. apply existsb_exists. exists v. split.
    + apply filter_In. split; [exact HV|]. unfold hp_sel in HS. rewrite <- EV, (task_prio info WF v HV) in HS. exact HS.
    + apply existsb_exists. exists q. split; [exact HQ|]. rewrite ER. apply existsb_exists. exists a. split; [exact HA|]. rewrite EV, Nat.eqb_refl, X. reflexivity.
  - eapply Z.le_trans; [apply (cnt_exists Q)|]. apply zsum_map_le. intros u HU. apply filter_In in HU. destruct HU as [HU _]. destruct WF as [_ W2]. destruct PP as [_ PQ].
    apply (sections_bound info m rel comp sched tr e WF PP EX OT (used_by tsk)); [exact HU|lia|exact HL|apply common_eq; apply (W2 tsk HT)|apply (PQ u HU); exact HT|].
    intros t Ht H. apply existsb_exists in H. destruct H as [q [HQ H]]. apply existsb_exists in H. destruct H as [a [HA H]]. apply andb_true_iff in H. rewrite Nat.eqb_eq in H. destruct H as [E X].
    exists (cr_job a). apply (in_section_iff info m rel comp sched tr WF EX); [exact HU|]. exists (q_res q), a. split; [apply used_by_iff; exists q; auto|auto].
Qed.

(** ** Blocking by requests of lower priority *)
Lemma direct_lower : cnt (blocked_by lp_sel) win <= Z.of_N (DB_i info tsk).
Proof.
  unfold DB_i. rewrite fold_sum. change (Z.of_N 0) with 0. rewrite Z.add_0_l. unfold blocked_by.
  eapply Z.le_trans; [apply (cnt_exists (fun q t => existsb (fun b => (cr_issue b <=? t) && (t <? cr_start b) && existsb (fun a => lp_sel a && executes_cs sched a t) (tr (q_res q))) (filter (is_job i k) (tr (q_res q)))))|].
  apply zsum_map_le. intros q HQ. eapply Z.le_trans; [apply (cnt_exists (fun b t => (cr_issue b <=? t) && (t <? cr_start b) && existsb (fun a => lp_sel a && executes_cs sched a t) (tr (q_res q))))|].
  pose proof (lr_number _ _ _ _ _ _ (LR (q_res q)) i k tsk q (info_nth info WF tsk HT) HQ eq_refl) as NB.
  eapply Z.le_trans; [apply zsum_map_le with (g := fun _ => Z.of_N (max_lower_length info tsk (q_res q)))|rewrite zs_const; nia].
  intros b HB. apply filter_In in HB. destruct HB as [HB J]. apply is_job_iff in J. destruct J as [J1 J2].
  (* the only such request *)
  assert (TB : tprio info (cr_task b) = prio) by (rewrite J1; apply (task_prio info WF); exact HT).
  assert (ONE : forall a t, In a (tr (q_res q)) -> lp_sel a = true -> executes_cs sched a t = true -> cr_issue b <= t < cr_start b -> cr_start a <= cr_issue b < cr_end a).
  { intros a t HA HS X HW. apply executes_cs_iff in X. destruct X as [X _]. unfold lp_sel in HS. apply N.ltb_lt in HS.
    destruct (Z.le_gt_cases (cr_start a) (cr_issue b)) as [L|L]; [lia|]. pose proof (px_queue _ _ _ _ _ _ EX (q_res q) a b HA HB ltac:(lia)). lia. }
  destruct (existsb (fun a => lp_sel a && ((cr_start a <=? cr_issue b) && (cr_issue b <? cr_end a))) (tr (q_res q))) eqn:F.
  - apply existsb_exists in F. destruct F as [a [HA F]]. rewrite !andb_true_iff, Z.leb_le, Z.ltb_lt in F. destruct F as [FS FT].
    apply Z.le_trans with (cnt (executes_cs sched a) win).
    + apply cnt_le. intros t _ H. rewrite !andb_true_iff, Z.leb_le, Z.ltb_lt in H. destruct H as [HW H]. apply existsb_exists in H. destruct H as [a' [HA' H]]. apply andb_true_iff in H. destruct H as [HS X].
      pose proof (ONE a' t HA' HS X HW). rewrite (holder_unique info m rel comp sched tr EX (q_res q) a a' (cr_issue b)); assumption.
    + destruct (request_task info m rel comp sched tr WF EX (q_res q) a HA) as [v [qa [HV [EV [HQA [ER _]]]]]].
      eapply Z.le_trans; [apply (section_length info m rel comp sched tr e WF EX (q_res q) a r0 qa v); auto|].
      unfold lp_sel in FS. apply N.ltb_lt in FS. rewrite <- EV, (task_prio info WF v HV) in FS. pose proof (max_lower_ge info tsk v qa HV FS HQA) as ML. rewrite ER in ML. lia.
  - apply Z.le_trans with (cnt (fun _ => false) win); [|unfold cnt; rewrite zs_const; cbn; lia].
    apply cnt_le. intros t _ H. rewrite !andb_true_iff, Z.leb_le, Z.ltb_lt in H. destruct H as [HW H]. apply existsb_exists in H. destruct H as [a [HA H]]. apply andb_true_iff in H. destruct H as [HS X].
    exfalso. apply not_true_iff_false in F. apply F. apply existsb_exists. exists a. split; [exact HA|]. rewrite !andb_true_iff, Z.leb_le, Z.ltb_lt. split; [exact HS|]. exact (ONE a t HA HS X HW).
Qed.

(** ** The remaining instants *)
Definition rest (t : Z) : bool := negb (executes sched i k t) && negb (blocked_by hp_sel t) && negb (blocked_by lp_sel t).

Lemma split_window : e - r0 <= cnt (executes sched i k) win + cnt (blocked_by hp_sel) win + cnt (blocked_by lp_sel) win + cnt rest win.
Proof.
  assert (E : e - r0 = zsum (map (fun _ => 1) win)) by (rewrite zs_const; unfold win; rewrite zrange_length; lia).
  rewrite E. unfold cnt. rewrite <- !zsum_map_add. apply zsum_map_le. intros t _. unfold rest. destruct (executes sched i k t), (blocked_by hp_sel t), (blocked_by lp_sel t); cbn; lia.
Qed.

Lemma rest_facts t : In t win -> rest t = true -> r0 <= t < e /\ ~ In (i, k) (sched t) /\ blocked_by hp_sel t = false /\ blocked_by lp_sel t = false.
Proof.
  intros Ht H. apply in_zrange in Ht. unfold rest in H. rewrite !andb_true_iff, !negb_true_iff in H. destruct H as [[H1 H2] H3]. split; [exact Ht|]. split; [|auto].
  intros X. apply executes_iff in X. congruence.
Qed.

(** all processors execute jobs of higher priority or sections whose ceilings are higher *)
Lemma rest_busy t : In t win -> rest t = true ->
  Z.of_nat m <= zsum (map (fun u => b2z (task_executes sched (ti_id u) t)) (filter (fun u => (ti_prio u <? prio)%N) info)) +
    zsum (map (fun u => b2z (existsb (fun q => high_ceiling info prio (q_res q) && existsb (fun c => Nat.eqb (cr_task c) (ti_id u) && executes_cs sched c t) (tr (q_res q))) (ti_requests u))) (lower_tasks info tsk)).
Proof.
  intros Ht HR. destruct (rest_facts t Ht HR) as [HW [NR [NH NL]]]. destruct (others t HW NR NH NL) as [LM CL].
  set (f := fun u => task_executes sched (ti_id u) t). set (g := fun u => existsb (fun q => high_ceiling info prio (q_res q) && existsb (fun c => Nat.eqb (cr_task c) (ti_id u) && executes_cs sched c t) (tr (q_res q))) (ti_requests u)).
  assert (LEN : forall (p : taskinfo -> bool) l, zsum (map (fun u => b2z (p u)) l) = Z.of_nat (length (filter p l))).
  { intros p. induction l as [|x l IH]; [reflexivity|]. cbn [map filter Base.zsum]. rewrite IH. destruct (p x); cbn [b2z length]; lia. }
  rewrite (LEN f), (LEN g), <- Nat2Z.inj_add, <- app_length. apply inj_le. rewrite <- LM, <- (map_length fst (sched t)).
  apply (inj_length (fun j u => j = ti_id u)).
  - apply (tasks_nodup info m rel comp sched tr e WF PP EX OT). lia.
  - intros j HJ. apply in_map_iff in HJ. destruct HJ as [[j' l] [E HJ]]. cbn in E. subst j'. destruct (px_running _ _ _ _ _ _ EX t j l HJ) as [BJ _].
    destruct (index_task info WF j BJ) as [u [_ [HU [EU PU]]]]. exists u. split; [|symmetry; exact EU]. apply in_app_iff. destruct (CL j l HJ) as [L|[L [r [a [b [HA [HB [E1 [E2 [TA [TB PB]]]]]]]]]]].
    + left. apply filter_In. split; [apply filter_In; split; [exact HU|apply N.ltb_lt; lia]|]. unfold f. apply task_executes_iff. exists l. rewrite EU. exact HJ.
    + right. apply filter_In. split; [apply filter_In; split; [exact HU|apply N.ltb_lt; fold prio; lia]|]. unfold g.
      destruct (request_task info m rel comp sched tr WF EX r a HA) as [v [qa [HV [EV [HQA [ER _]]]]]]. assert (v = u) by (apply (info_inj info WF); [assumption|assumption|congruence]). subst v.
      apply existsb_exists. exists qa. split; [exact HQA|]. rewrite ER. apply andb_true_iff. split.
      * unfold high_ceiling. apply N.ltb_lt. destruct (request_task info m rel comp sched tr WF EX r b HB) as [w [qb [HWt [EW [HQB [ERB _]]]]]].
        destruct PP as [_ PQ]. assert (ti_prio w < UNLIMITED)%N by apply (PQ w HWt). assert (tprio info (cr_task b) = ti_prio w) by (rewrite <- EW; apply (task_prio info WF); exact HWt).
        assert (nth r (get_priority_ceilings info) UNLIMITED <= ti_prio w)%N; [|lia]. apply ceilings_spec; [assumption|]. exists w. split; [|lia]. split; [exact HWt|]. exists qb. auto.
      * apply existsb_exists. exists a. split; [exact HA|]. rewrite E1, EU, Nat.eqb_refl. cbn [andb]. apply executes_cs_iff. rewrite E1, E2. auto.
  - intros x x' y -> ->. reflexivity.
Qed.

Lemma rest_top : (prio < N.of_nat m)%N -> cnt rest win = 0.
Proof.
  intros HP. apply Z.le_antisymm; [|apply cnt_nonneg]. apply Z.le_trans with (cnt (fun _ => false) win); [|unfold cnt; rewrite zs_const; cbn; lia].
  apply cnt_le. intros t Ht HR. exfalso. destruct (rest_facts t Ht HR) as [HW [NR [NH NL]]]. destruct (others t HW NR NH NL) as [LM CL].
  set (hp := filter (fun u => (ti_prio u <? prio)%N) info).
  assert (B : (N.of_nat (length (map ti_prio hp)) <= prio)%N).
  { apply few_below.
    - destruct PP as [ND _]. clear - ND. unfold hp. clear hp. induction info as [|x l IH]; [constructor|]. cbn [map] in ND. inversion ND as [|a b NI ND']; subst. cbn [filter]. destruct (ti_prio x <? prio)%N; [|auto]. cbn [map]. constructor; [|auto].
      intros X. apply NI. apply in_map_iff in X. destruct X as [y [E H]]. apply filter_In in H. apply in_map_iff. exists y. tauto.
    - intros x Hx. apply in_map_iff in Hx. destruct Hx as [u [<- HU]]. apply filter_In in HU. apply N.ltb_lt. apply HU. }
  rewrite map_length in B.
  assert (A : (length (sched t) <= length hp)%nat).
  { apply (inj_length (fun jl u => In jl (sched t) /\ In u info /\ ((fst jl = ti_id u /\ (ti_prio u < prio)%N) \/ (exists r a b, In a (tr r) /\ In b (tr r) /\ cr_task a = fst jl /\ cr_job a = snd jl /\ cr_start a <= t < cr_end a /\ cr_issue b <= t < cr_start b /\ cr_task b = ti_id u)))).
    - apply (px_cpus _ _ _ _ _ _ EX t).
    - intros [j l] HJ. cbn [fst snd]. destruct (px_running _ _ _ _ _ _ EX t j l HJ) as [BJ _]. destruct (CL j l HJ) as [L|[L [r [a [b [HA [HB [E1 [E2 [TA [TB PB]]]]]]]]]]].
      + destruct (index_task info WF j BJ) as [u [_ [HU [EU PU]]]]. exists u. split; [apply filter_In; split; [exact HU|apply N.ltb_lt; lia]|]. split; [exact HJ|]. split; [exact HU|]. left. split; [auto|lia].
      + destruct (request_task info m rel comp sched tr WF EX r b HB) as [w [qb [HWt [EW _]]]]. exists w. split; [apply filter_In; split; [exact HWt|apply N.ltb_lt; rewrite <- (task_prio info WF w HWt), EW; exact PB]|].
        split; [exact HJ|]. split; [exact HWt|]. right. exists r, a, b. auto 10.
    - (* a waiting job does not execute and waits for one holder *)
      assert (SU : forall jl u r b, In jl (sched t) -> In u info -> fst jl = ti_id u -> In b (tr r) -> cr_issue b <= t < cr_start b -> cr_task b = ti_id u -> False).
      { intros [j l] u r b HJ HU E HB TB EB. cbn [fst] in E. destruct (px_running _ _ _ _ _ _ EX t j l HJ) as [_ [PJ NS]]. apply NS. exists r, b. split; [exact HB|]. split; [congruence|]. split; [|exact TB].
        pose proof (request_times info m rel comp sched tr EX r b HB). pose proof (request_pending info m rel comp sched tr EX r b t HB ltac:(lia)) as PB. rewrite EB in PB. rewrite E in PJ.
        exact (pending_unique info m rel comp sched tr e PP EX OT u (cr_job b) l t HU ltac:(lia) PB PJ). }
      intros [j l] [j' l'] u [HJ [HU R]] [HJ' [_ R']]. cbn [fst snd] in R, R'. destruct R as [[E P]|[r [a [b [HA [HB [E1 [E2 [TA [TB EB]]]]]]]]]], R' as [[E' P']|[r' [a' [b' [HA' [HB' [E1' [E2' [TA' [TB' EB']]]]]]]]]].
      + pose proof (tasks_nodup info m rel comp sched tr e WF PP EX OT t ltac:(lia)) as ND. clear - ND E E' HJ HJ'. subst j j'. induction (sched t) as [|x s IH]; [destruct HJ|]. cbn [map] in ND. inversion ND as [|y z NI ND']; subst.
        destruct HJ as [HE|HJ], HJ' as [HE'|HJ']; [congruence| | |auto]; exfalso; apply NI; apply in_map_iff; [exists (ti_id u, l')|exists (ti_id u, l)]; (split; [subst x; reflexivity|assumption]).
      + exfalso. exact (SU (j, l) u r' b' HJ HU E HB' TB' EB').
      + exfalso. exact (SU (j', l') u r b HJ' HU E' HB TB EB).
      + pose proof (request_times info m rel comp sched tr EX r b HB). pose proof (request_times info m rel comp sched tr EX r' b' HB').
        assert (X : (r, b) = (r', b')) by (apply (outstanding_unique info m rel comp sched tr EX r r' b b' t); [assumption|assumption|congruence|lia|lia]). injection X as <- <-.
        assert (a = a') by (apply (holder_unique info m rel comp sched tr EX r a a' t); assumption). subst a'. congruence. }
  lia.
Qed.

(** ** The window as a whole *)
Lemma top_bound : (prio < N.of_nat m)%N -> e - r0 <= cnt (executes sched i k) win + Z.of_N (DB_i info tsk) + Z.of_N (Ihp_i_dsr info tsk).
Proof. intros HP. pose proof split_window. pose proof (rest_top HP). pose proof direct_higher. pose proof direct_lower. lia. Qed.

Lemma high_sections : zsum (map (fun u => cnt (fun t => existsb (fun q => high_ceiling info prio (q_res q) && existsb (fun c => Nat.eqb (cr_task c) (ti_id u) && executes_cs sched c t) (tr (q_res q))) (ti_requests u)) win) (lower_tasks info tsk)) <=
  Z.of_N (Ilp_i info tsk (N.of_nat m)) * Z.of_nat m.
Proof.
  eapply Z.le_trans.
  - apply zsum_map_le with (g := fun u => Z.of_N (W_l_tx (ti_response tsk) u (lower_priority_with_higher_ceiling_time tsk u (get_priority_ceilings info)))). intros u HU. apply filter_In in HU. destruct HU as [HU _]. destruct PP as [_ PQ].
    apply (sections_bound info m rel comp sched tr e WF PP EX OT (high_ceiling info prio)); [exact HU|lia|exact HL|apply high_time_eq|apply (PQ u HU); exact HT|].
    intros t Ht H. apply existsb_exists in H. destruct H as [q [HQ H]]. apply andb_true_iff in H. destruct H as [HS H]. apply existsb_exists in H. destruct H as [c [HC H]]. apply andb_true_iff in H. rewrite Nat.eqb_eq in H. destruct H as [E X].
    exists (cr_job c). apply (in_section_iff info m rel comp sched tr WF EX); [exact HU|]. exists (q_res q), c. auto.
  - unfold Ilp_i. match goal with |- _ <= Z.of_N (divide_with_ceil ?s _) * _ => set (sum := s) end.
    assert (ES : Z.of_N sum = zsum (map (fun u => Z.of_N (W_l_tx (ti_response tsk) u (lower_priority_with_higher_ceiling_time tsk u (get_priority_ceilings info)))) (lower_tasks info tsk))) by (unfold sum; rewrite fold_sum; reflexivity).
    rewrite <- ES. destruct (ProofLocking.divide_with_ceil_spec sum (N.of_nat m) ltac:(lia)) as [_ D]. lia.
Qed.

Lemma low_bound : e - r0 <= cnt (executes sched i k) win + Z.of_N (DB_i info tsk) + Z.of_N (Ihp_i_dsr info tsk) + Z.of_N (Ilp_i info tsk (N.of_nat m)) +
  Z.max 0 (higher_work info sched prio r0 e - Z.of_N (Ihp_i_dsr info tsk)) / Z.of_nat m.
Proof.
  pose proof split_window as SW. pose proof direct_higher as DH. pose proof direct_lower as DL. pose proof high_sections as HS.
  set (hp := filter (fun u => (ti_prio u <? prio)%N) info).
  set (X := cnt rest win) in *. set (d := cnt (blocked_by hp_sel) win) in *.
  set (HR := zsum (map (fun t => if rest t then zsum (map (fun u => b2z (task_executes sched (ti_id u) t)) hp) else 0) win)).
  set (LW := zsum (map (fun u => cnt (fun t => existsb (fun q => high_ceiling info prio (q_res q) && existsb (fun c => Nat.eqb (cr_task c) (ti_id u) && executes_cs sched c t) (tr (q_res q))) (ti_requests u)) win) (lower_tasks info tsk))) in *.
  assert (MX : Z.of_nat m * X <= HR + LW).
  { unfold X, HR, LW, cnt. rewrite zs_swap, <- zsum_map_mul, <- zsum_map_add. apply zsum_map_le. intros t Ht. destruct (rest t) eqn:R; cbn [b2z].
    - pose proof (rest_busy t Ht R). fold hp in H. lia.
    - assert (0 <= zsum (map (fun u => b2z (existsb (fun q => high_ceiling info prio (q_res q) && existsb (fun c => Nat.eqb (cr_task c) (ti_id u) && executes_cs sched c t) (tr (q_res q))) (ti_requests u))) (lower_tasks info tsk))); [|lia].
      apply zsum_nonneg. intros y Hy. apply in_map_iff in Hy. destruct Hy as [z [<- _]]. apply b2z_range. }
  assert (HH : HR + d <= higher_work info sched prio r0 e).
  { unfold higher_work. fold hp. assert (E : zsum (map (fun u => instants (task_executes sched (ti_id u)) r0 e) hp) = zsum (map (fun t => zsum (map (fun u => b2z (task_executes sched (ti_id u) t)) hp)) win)).
    { rewrite <- zs_swap. apply zsum_map_ext. intros u _. apply instants_cnt. }
    rewrite E. unfold HR, d, cnt. rewrite <- zsum_map_add. apply zsum_map_le. intros t Ht.
    assert (NN : 0 <= zsum (map (fun u => b2z (task_executes sched (ti_id u) t)) hp)) by (apply zsum_nonneg; intros y Hy; apply in_map_iff in Hy; destruct Hy as [z [<- _]]; apply b2z_range).
    destruct (rest t) eqn:R.
    - destruct (rest_facts t Ht R) as [_ [_ [-> _]]]. cbn [b2z]. lia.
    - destruct (blocked_by hp_sel t) eqn:B; cbn [b2z]; [|lia]. apply blocked_iff in B. destruct B as [r [b [a [HB [E1 [E2 [TB [HA [HSa XC]]]]]]]]].
      destruct (request_task info m rel comp sched tr WF EX r a HA) as [v [_ [HV [EV _]]]].
      assert (IV : In v hp) by (apply filter_In; split; [exact HV|]; unfold hp_sel in HSa; rewrite <- EV, (task_prio info WF v HV) in HSa; exact HSa).
      pose proof (zsum_in_le _ (fun u => b2z (task_executes sched (ti_id u) t)) hp v ltac:(intros; apply b2z_range) IV) as G. cbv beta in G.
      apply executes_cs_iff in XC. destruct XC as [_ XC]. rewrite <- EV in XC.
      assert (TE : task_executes sched (ti_id v) t = true) by (apply task_executes_iff; exists (cr_job a); exact XC). rewrite TE in G. cbn [b2z] in G. lia. }
  set (H := higher_work info sched prio r0 e) in *. set (D := Z.of_N (Ihp_i_dsr info tsk)) in *. set (IL := Z.of_N (Ilp_i info tsk (N.of_nat m))) in *.
  assert (0 <= d) by apply cnt_nonneg. assert (0 <= HR).
  { unfold HR. apply zsum_nonneg. intros y Hy. apply in_map_iff in Hy. destruct Hy as [t [<- _]]. destruct (rest t); [|lia]. apply zsum_nonneg. intros z Hz. apply in_map_iff in Hz. destruct Hz as [w [<- _]]. apply b2z_range. }
  assert (XB : X <= IL + (H - d) / Z.of_nat m).
  { assert (X - IL <= (H - d) / Z.of_nat m); [|lia]. apply Z.div_le_lower_bound; lia. }
  assert (XD : d + (H - d) / Z.of_nat m <= D + Z.max 0 (H - D) / Z.of_nat m).
  { destruct (Z.le_gt_cases D H) as [L|L].
    - rewrite (Z.max_r 0 (H - D)) by lia. assert ((H - d) / Z.of_nat m <= (H - D) / Z.of_nat m + (D - d)); [|lia].
      rewrite <- Z.div_add by lia. apply Z.div_le_mono; nia.
    - rewrite (Z.max_l 0 (H - D)) by lia. rewrite Z.div_0_l by lia. assert ((H - d) / Z.of_nat m <= H - d); [|lia]. apply Z.div_le_upper_bound; nia. }
  lia.
Qed.
End Job.
