(** Response times under the global priority inheritance protocol. *)
From Coq Require Import NArith ZArith List Bool Lia Arith.
From Verif Require Import Base ModelTasks ModelLocking ModelGFP ModelPIP SpecLocking SpecQueue SpecDPCP SpecFMLPPlus SpecPIP ProofLocking ProofSpin ProofQueue ProofBlame ProofLockingMono ProofGlobal ProofMSRP
  ProofGFPTop ProofPIP ProofPIPExec ProofPIPBound.
Import ListNotations.
Import Base.
Open Scope Z_scope.

Lemma filter_index (l : list taskinfo) : forall s i, map ti_id l = seq s (length l) -> (forall u, In u l -> ti_prio u = N.of_nat (ti_id u)) ->
  filter (fun u => (ti_prio u <? N.of_nat (s + i))%N) l = firstn i l.
Proof.
  induction l as [|u l IH]; intros s i E P; [destruct i; reflexivity|]. cbn [map length seq] in E. injection E as E1 E2. pose proof (P u (or_introl eq_refl)) as PU.
  destruct i as [|i]; cbn [firstn filter].
  - destruct (N.ltb_spec (ti_prio u) (N.of_nat (s + 0))); [lia|]. assert (G := IH (S s) O E2 (fun v Hv => P v (or_intror Hv))).
    destruct (filter (fun u0 => (ti_prio u0 <? N.of_nat (s + 0))%N) l) as [|v r] eqn:F; [reflexivity|]. exfalso.
    assert (X : In v (filter (fun u0 => (ti_prio u0 <? N.of_nat (s + 0))%N) l)) by (rewrite F; left; reflexivity). apply filter_In in X. destruct X as [X1 X2]. apply N.ltb_lt in X2.
    assert (Y : In v (filter (fun u0 => (ti_prio u0 <? N.of_nat (S s + 0))%N) l)) by (apply filter_In; split; [exact X1|apply N.ltb_lt; lia]). rewrite G in Y. destruct Y.
  - destruct (N.ltb_spec (ti_prio u) (N.of_nat (s + S i))); [|lia]. f_equal. rewrite <- (IH (S s) i E2 (fun v Hv => P v (or_intror Hv))). apply filter_ext. intros v. do 2 f_equal. lia.
Qed.

Section Rta.
Context (info : list taskinfo) (m : nat) (rel comp : nat -> nat -> Z) (sched : Z -> list (nat * nat)) (tr : nat -> list creq).
Hypothesis WF : wf_info info.
Hypothesis PP : pip_params info.
Hypothesis EX : pip_execution info m rel comp sched tr.
Hypothesis WO : works_off info rel comp sched.
Hypothesis HM : (0 < m)%nat.

Lemma job_cost u h lo hi : In u info -> cnt (executes sched (ti_id u) h) (zrange lo hi) <= Z.of_N (ti_cost u).
Proof.
  intros HU. set (r := rel (ti_id u) h). set (c := comp (ti_id u) h).
  assert (A : cnt (executes sched (ti_id u) h) (zrange lo hi) <= cnt (executes sched (ti_id u) h) (zrange r c)).
  { rewrite <- (cnt_length _ (zrange lo hi)), <- instants_cnt. apply instants_filter; [apply zrange_nodup|]. intros t _ H. apply executes_iff in H. apply (px_running _ _ _ _ _ _ EX t _ _ H). }
  eapply Z.le_trans; [exact A|]. destruct (Z.le_gt_cases c r) as [L|L].
  - unfold zrange. replace (Z.to_nat (c - r)) with O by lia. cbn. lia.
  - pose proof (WO u HU h (c - 1) ltac:(fold r c; lia)) as W. fold r in W. rewrite instants_cnt in W. rewrite (zrange_app r (c - 1) c) by lia. unfold cnt in *. rewrite map_app, zsum_app.
    assert (ONE : zsum (map (fun t => b2z (executes sched (ti_id u) h t)) (zrange (c - 1) c)) <= 1); [|lia].
    unfold zrange. replace (Z.to_nat (c - (c - 1))) with 1%nat by lia. cbn [seq map Base.zsum]. pose proof (b2z_range (executes sched (ti_id u) h (c - 1 + Z.of_nat 0))). lia.
Qed.

Context (fuel : nat) (nosl : bool) (res : list ganalysed).
Hypothesis PR : forall t, In t info -> ti_prio t = N.of_nat (ti_id t).
Hypothesis RT : bert_is_schedulable fuel nosl (Z.of_nat m) (pip_taskset info m) = GDone true res.
Hypothesis RB : forall i t tk r, nth_error info i = Some t -> nth_error res i = Some (tk, r) -> r <= Z.of_N (ti_response t).
Hypothesis ST : forall t, In t info -> 0 <= rel (ti_id t) 0%nat.

Let gtask_of (u : taskinfo) : gtask := GTask (Task (Z.of_N (ti_cost u)) (Z.of_N (ti_period u)) (Z.of_N (ti_deadline u)))
  (Some (Z.of_N (fst (global_pip_task info (N.of_nat m) u)))) (Some (Z.of_N (snd (global_pip_task info (N.of_nat m) u)))).

Lemma taskset_map : pip_taskset info m = map gtask_of info.
Proof.
  unfold pip_taskset, apply_classic_pip_bounds, global_pip_bounds. assert (G : forall l, combine l (map (global_pip_task info (N.of_nat m)) l) = map (fun u => (u, global_pip_task info (N.of_nat m) u)) l).
  { induction l as [|x l IH]; [reflexivity|]. cbn [map combine]. rewrite IH. reflexivity. }
  rewrite G, map_map. reflexivity.
Qed.

Lemma taskset_wf : Forall wf_g (pip_taskset info m).
Proof.
  rewrite taskset_map. apply Forall_forall. intros g HG. apply in_map_iff in HG. destruct HG as [u [<- HU]]. destruct PP as [_ PQ]. destruct (PQ u HU) as [PD _]. destruct WF as [_ W2]. pose proof (proj1 (W2 u HU)).
  unfold wf_g, gtask_of. cbn [g_task t_cost t_period t_deadline g_hpdirect g_blocked ModelFP.attr]. unfold global_pip_task. cbn [fst snd]. lia.
Qed.

Lemma res_facts i u : nth_error info i = Some u -> exists r, nth i res da0 = (gtask_of u, r) /\ (i < length res)%nat /\ Forall ok_a (firstn i res) /\ ok_a (gtask_of u, r) /\
  Z.of_N (ti_cost u) + Z.of_N (fst (global_pip_task info (N.of_nat m) u)) <= r /\ r <= Z.of_N (ti_response u) /\
  (if Z.of_nat i <? Z.of_nat m then r = Z.of_N (ti_cost u) + Z.of_N (fst (global_pip_task info (N.of_nat m) u)) else bert_demand nosl (Z.of_nat m) (firstn i res) (gtask_of u) r = r).
Proof.
  intros E. destruct (gfp_all_true _ _ _ _ RT) as [EQ H].
  assert (LEN : length res = length info) by (transitivity (length (map fst res)); [symmetry; apply map_length|rewrite EQ, taskset_map, map_length; reflexivity]).
  assert (IL : (i < length res)%nat) by (rewrite LEN; apply nth_error_Some; congruence).
  assert (HF : fst (nth i res da0) = gtask_of u).
  { rewrite <- fst_nth, EQ, taskset_map. apply nth_error_nth. apply map_nth_error. exact E. }
  pose proof (all_ok (bert_rta fuel nosl (Z.of_nat m)) _ res (fun hp t r A B C => proj1 (bert_rta_spec fuel nosl (Z.of_nat m) hp t r ltac:(lia) A B C)) taskset_wf EQ (fun k Hk => proj2 (H k Hk))) as OK.
  assert (FO : Forall ok_a (firstn i res)).
  { apply Forall_firstn. intros j d Hj Hl. rewrite (nth_indep _ d da0) by assumption. apply OK. assumption. }
  exists (snd (nth i res da0)). pose proof (OK i IL) as Oi. destruct (H i IL) as [_ HR]. rewrite HF in HR. 
  assert (EP : nth i res da0 = (gtask_of u, snd (nth i res da0))) by (rewrite <- HF; apply surjective_pairing).
  assert (WG : wf_g (gtask_of u)) by (rewrite <- HF; apply Oi).
  assert (M1 : 1 <= Z.of_nat m) by lia. destruct (bert_rta_spec fuel nosl (Z.of_nat m) _ _ _ M1 FO WG HR) as [O1 [O2 O3]]. rewrite firstn_len in O3 by assumption.
  split; [exact EP|]. split; [exact IL|]. split; [exact FO|]. split; [exact O1|]. split; [exact O2|]. split.
  - apply (RB i u (gtask_of u) _ E). rewrite <- EP. apply nth_error_nth'. exact IL.
  - destruct (Z.ltb_spec (Z.of_nat i) (Z.of_nat m)); [exact O3|apply O3].
Qed.

Let resp (i : nat) : Z := snd (nth i res da0).

Lemma responds : forall n i k u, nth_error info i = Some u -> (Z.to_nat (rel i k + resp i) < n)%nat -> comp i k <= rel i k + resp i.
Proof.
  induction n as [|n IH]; intros i k u E HN; [lia|]. destruct (Z.le_gt_cases (comp i k) (rel i k + resp i)) as [L|L]; [exact L|exfalso].
  set (e := rel i k + resp i) in *. assert (HU : In u info) by (eapply nth_error_In; exact E). assert (EI : ti_id u = i) by (apply (info_id info WF); exact E).
  destruct (res_facts i u E) as [r [EP [IL [FO [OK [RC [RR RE]]]]]]]. assert (ER : resp i = r) by (unfold resp; rewrite EP; reflexivity).
  destruct OK as [_ OK]. unfold gtask_of in OK. cbn [fst snd g_task t_cost t_deadline] in OK.
  assert (RN : forall j v h, nth_error info j = Some v -> 0 <= rel j h).
  { intros j v h Ej. assert (Hv : In v info) by (eapply nth_error_In; exact Ej). pose proof (rel_ge info m rel comp sched tr WF EX v h Hv) as G. pose proof (ST v Hv). rewrite (info_id info WF j v Ej) in *. lia. }
  (* the other jobs are on time *)
  assert (OTR : forall j v h, nth_error info j = Some v -> comp j h <= rel j h + resp j \/ e <= rel j h + resp j).
  { intros j v h Ej. destruct (Z.lt_ge_cases (rel j h + resp j) e) as [LT|GE]; [left|right; lia]. apply (IH j h v Ej).
    destruct (res_facts j v Ej) as [rj [EPj [_ [_ [_ [RCj _]]]]]]. unfold resp in *. rewrite EPj in *. cbn [snd] in *. pose proof (RN j v h Ej). lia. }
  assert (OT : on_time info rel comp e).
  { intros v Hv h. pose proof (info_nth info WF v Hv) as Ej. destruct (res_facts _ v Ej) as [rj [EPj [_ [_ [[_ OKj] _]]]]]. unfold gtask_of in OKj. cbn [fst snd g_task t_cost t_deadline] in OKj.
    pose proof (OTR (ti_id v) v h Ej) as O. unfold resp in O. rewrite EPj in O. cbn [snd] in O. lia. }
  assert (REL : rel i k <= comp i k) by (pose proof (proj2 (px_releases _ _ _ _ _ _ EX u HU k)) as X; rewrite EI in X; exact X).
  assert (WIN : rel (ti_id u) k <= e <= comp (ti_id u) k) by (rewrite EI; unfold e; lia).
  assert (LEN : e - rel (ti_id u) k <= Z.of_N (ti_response u)) by (rewrite EI; unfold e; lia).
  pose proof (WO u HU k e ltac:(rewrite EI; unfold e; lia)) as WK. rewrite instants_cnt in WK.
  pose proof (PR u HU) as PRU. rewrite EI in PRU.
  destruct (Z.ltb_spec (Z.of_nat i) (Z.of_nat m)) as [LT|GE].
  - pose proof (top_bound info m rel comp sched tr e WF PP EX OT u k HU HM WIN LEN ltac:(lia)) as B.
    unfold global_pip_task in RE. cbn [fst] in RE. rewrite EI in B, WK. unfold e in *. lia.
  - pose proof (low_bound info m rel comp sched tr e WF PP EX OT u k HU HM WIN LEN) as B.
    rewrite bert_demand_eq in RE; [|lia|exact FO|].
    2:{ pose proof taskset_wf as TW. rewrite taskset_map, Forall_forall in TW. apply TW. apply in_map. exact HU. }
    unfold gtask_of in RE. cbn [g_task t_cost g_blocked g_hpdirect ModelFP.attr] in RE. unfold global_pip_task in RE. cbn [fst snd] in RE. destruct (N.leb_spec (N.of_nat m) (ti_prio u)); [|lia].
    assert (HWK : higher_work info sched (ti_prio u) (rel (ti_id u) k) e <= zsum (map (bert_term nosl r) (firstn i res))).
    { unfold higher_work. rewrite PRU. destruct WF as [W1 W2]. pose proof (filter_index info 0 i W1 PR) as FI. cbn [plus] in FI. rewrite FI. assert (ILI : (i < length info)%nat) by (apply nth_error_Some; congruence).
      rewrite (zsum_firstn_f _ (bert_term nosl r) da0) by lia. rewrite (zsum_firstn_f _ _ u) by lia. apply sumf_le. intros j Hj.
      assert (Ej : nth_error info j = Some (nth j info u)) by (apply nth_error_nth'; lia). set (v := nth j info u) in *. assert (Hv : In v info) by (eapply nth_error_In; exact Ej).
      assert (EIv : ti_id v = j) by (apply (info_id info WF); exact Ej).
      destruct (res_facts j v Ej) as [rj [EPj [_ [_ [OKj _]]]]]. rewrite EPj. rewrite bert_term_wl; [|exact OKj|lia]. destruct OKj as [_ OKj].
      unfold gtask_of in *. cbn [fst snd g_task t_cost t_deadline t_period] in *. rewrite instants_cnt. destruct PP as [_ PQ]. destruct (PQ v Hv) as [PD _].
      apply (task_work info m rel comp sched tr e WF EX (rel (ti_id u) k) v (fun h => executes sched (ti_id v) h)).
      - exact Hv.
      - lia.
      - rewrite EI. unfold e. lia.
      - destruct nosl; lia.
      - lia.
      - intros h t _ X. apply executes_iff in X. apply (px_running _ _ _ _ _ _ EX t _ _ X).
      - intros h. apply job_cost. exact Hv.
      - intros h. rewrite EIv. pose proof (OTR j v h Ej) as O. unfold resp in O. rewrite EPj in O. cbn [snd] in O. destruct nosl; lia.
      - intros t _ X. apply task_executes_iff in X. destruct X as [h X]. exists h. apply executes_iff. exact X. }
    assert (DM : Z.max 0 (higher_work info sched (ti_prio u) (rel (ti_id u) k) e - Z.of_N (Ihp_i_dsr info u)) / Z.of_nat m <=
                 Z.max (zsum (map (bert_term nosl r) (firstn i res)) - Z.of_N (Ihp_i_dsr info u)) 0 / Z.of_nat m) by (apply Z.div_le_mono; lia).
    rewrite EI in *. unfold e in *. lia.
Qed.
End Rta.
