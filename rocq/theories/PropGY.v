(** Theorems for C39: the EDF response-time analysis of schedcat/sched/edf/gy_rta.py. *)
From Coq Require Import ZArith QArith List Bool Lia Sorted Permutation.
From Verif Require Import Base ModelTasks SpecUni SpecQPA ProofTasks ProofEDF ModelGY ProofGY ProofGYTop.
Import ListNotations.
Open Scope Z_scope.

(** ** Safety: no job of any EDF schedule of any legal release sequence responds later.
    The tasks are numbered as in the result, which is the task set sorted by deadline.
    Deadlines are distinct, except that the two smallest may be equal. *)
Theorem C39_approx_safe : forall fuel ts l s sc,
  Forall pos_task ts -> approx_wcrt fuel ts = GYTimes l -> let order := map fst l in
  NoDup (map t_deadline (tl order)) ->
  legal_edf (map etask_of_task order) s -> valid_schedule (length order) s sc -> edf_policy (map etask_of_task order) s sc ->
  forall i t r k, nth_error l i = Some (t, r) ->
  exists v, r = Some v /\ 0 < v /\ completed s sc (i, k) (Z.to_nat (Z.of_nat (arr s i k) + v)).
Proof.
  intros fuel ts l s sc P H order DI LEG VAL POL i t r k E. unfold order in *. rewrite (approx_order fuel ts l H) in *.
  assert (Hi : (i < length (sort_by_deadline ts))%nat) by (rewrite <- (approx_order fuel ts l H), map_length; eapply nth_error_Some_lt; exact E).
  destruct (approx_safe fuel ts s sc P DI LEG VAL POL l H i k Hi) as [v [E' [V C]]]. rewrite E in E'. inversion E'; subst. eauto.
Qed.
Print Assumptions C39_approx_safe.

Theorem C39_exact_safe : forall fuel ts l s sc,
  Forall pos_task ts -> exact_wcrt fuel ts = GYTimes l -> let order := map fst l in
  NoDup (map t_deadline (tl order)) ->
  legal_edf (map etask_of_task order) s -> valid_schedule (length order) s sc -> edf_policy (map etask_of_task order) s sc ->
  forall i t r k, nth_error l i = Some (t, r) ->
  exists v, r = Some v /\ 0 < v /\ completed s sc (i, k) (Z.to_nat (Z.of_nat (arr s i k) + v)).
Proof.
  intros fuel ts l s sc P H order DI LEG VAL POL i t r k E. unfold order in *. rewrite (exact_order fuel ts l H) in *.
  assert (Hi : (i < length (sort_by_deadline ts))%nat) by (rewrite <- (exact_order fuel ts l H), map_length; eapply nth_error_Some_lt; exact E).
  destruct (exact_safe fuel ts s sc P DI LEG VAL POL l H i k Hi) as [v [E' [V C]]]. rewrite E in E'. inversion E'; subst. eauto.
Qed.
Print Assumptions C39_exact_safe.

Definition gy_ex : taskset := [Task 3 12 12; Task 2 4 4].

Example C39_safe_example : Forall pos_task gy_ex /\
  approx_wcrt 100 gy_ex = GYTimes [(Task 2 4 4, Some 2); (Task 3 12 12, Some 9)] /\
  exact_wcrt 100 gy_ex = GYTimes [(Task 2 4 4, Some 2); (Task 3 12 12, Some 7)] /\ NoDup (map t_deadline (tl [Task 2 4 4; Task 3 12 12])).
Proof.
  split; [repeat constructor|]. split; [vm_compute; reflexivity|]. split; [vm_compute; reflexivity|]. cbn. repeat constructor. intros [].
Qed.

(** a schedule meeting the hypotheses: both tasks released together and then periodically *)
Example C39_schedule_example : let ets := map etask_of_task [Task 2 4 4; Task 3 12 12] in
  exists s sc, legal_edf ets s /\ valid_schedule 2 s sc /\ edf_policy ets s sc /\ (cst s 1 0 = 3)%nat.
Proof.
  intros ets. assert (Hwf : Forall wf_etask ets) by (repeat constructor; cbn; lia). exists (synchronous ets), (edf_schedule ets (synchronous ets)).
  pose proof (synchronous_legal _ Hwf) as Hl. destruct (edf_schedule_ok _ _ Hwf Hl) as [H1 H2]. split; [exact Hl|]. split; [exact H1|]. split; [exact H2|reflexivity].
Qed.

(** ** The result lists the given tasks, sorted by deadline *)
Theorem C39_order : forall fuel ts l, approx_wcrt fuel ts = GYTimes l \/ exact_wcrt fuel ts = GYTimes l ->
  Permutation (map fst l) ts /\ StronglySorted (fun a b => t_deadline a <= t_deadline b) (map fst l).
Proof.
  intros fuel ts l H. assert (E : map fst l = sort_by_deadline ts) by (destruct H; [eapply approx_order|eapply exact_order]; eassumption). rewrite E. split; [apply sort_deadline_perm|apply sort_deadline_sorted].
Qed.
Print Assumptions C39_order.

(** ** The refined analysis is never worse *)
Theorem C39_exact_le_approx : forall fuel ts le la, Forall pos_task ts -> exact_wcrt fuel ts = GYTimes le -> approx_wcrt fuel ts = GYTimes la ->
  forall i t re ra, nth_error le i = Some (t, Some re) -> nth_error la i = Some (t, Some ra) -> re <= ra.
Proof. exact exact_le_approx. Qed.
Print Assumptions C39_exact_le_approx.

(** ** A response time covers one job of every task with no later deadline *)
Theorem C39_lower_bound : forall fuel ts l, Forall pos_task ts -> exact_wcrt fuel ts = GYTimes l -> NoDup (map t_deadline (tl (map fst l))) ->
  forall i t r, nth_error l i = Some (t, Some r) -> zsum (map t_cost (filter (fun u => t_deadline u <=? t_deadline t) ts)) <= r.
Proof. intros fuel ts l P H DI. rewrite (exact_order fuel ts l H) in DI. exact (exact_lower fuel ts l P DI H). Qed.
Print Assumptions C39_lower_bound.

Example C39_lower_bound_example : zsum (map t_cost (filter (fun u => t_deadline u <=? 12) gy_ex)) = 5 /\ 5 <= 7.
Proof. split; [reflexivity|lia]. Qed.

(** ** The verdict: every response time is within its deadline exactly if the demand of
    no interval exceeds its length, for both analyses *)
Theorem C39_verdict : forall fuel ts l, Forall pos_task ts -> approx_wcrt fuel ts = GYTimes l \/ exact_wcrt fuel ts = GYTimes l -> NoDup (map t_deadline (tl (map fst l))) ->
  ((forall t r, In (t, r) l -> exists v, r = Some v /\ v <= t_deadline t) <-> forall x, 0 <= x -> zsum (map (fun t => dbf t x) ts) <= x).
Proof.
  intros fuel ts l P H DI. destruct H as [H|H].
  - rewrite (approx_order fuel ts l H) in DI. exact (approx_verdict fuel ts P DI l H).
  - rewrite (exact_order fuel ts l H) in DI. exact (exact_verdict fuel ts P DI l H).
Qed.
Print Assumptions C39_verdict.

(** both verdicts occur *)
Example C39_verdict_example : exact_wcrt 100 [Task 3 12 4; Task 3 12 5] = GYTimes [(Task 3 12 4, Some 5); (Task 3 12 5, Some 6)] /\
  exact_wcrt 100 [Task 3 12 4; Task 3 12 6] = GYTimes [(Task 3 12 4, Some 4); (Task 3 12 6, Some 6)].
Proof. split; vm_compute; reflexivity. Qed.

(** ** Termination: below full utilization both analyses end with response times;
    above, they return False *)
Theorem C39_terminates : forall ts, Forall pos_task ts -> ts <> [] -> (ts_utilization ts None < 1)%Q ->
  exists n, forall fuel, (n <= fuel)%nat -> (exists l, approx_wcrt fuel ts = GYTimes l) /\ exists l, exact_wcrt fuel ts = GYTimes l.
Proof. exact gy_terminates. Qed.
Print Assumptions C39_terminates.

Theorem C39_overutilized : forall fuel ts, (1 < ts_utilization ts None)%Q -> approx_wcrt fuel ts = GYFalse /\ exact_wcrt fuel ts = GYFalse.
Proof.
  intros fuel ts U. assert (E : Qle_bool (ts_utilization ts None) 1 = false). { destruct (Qle_bool (ts_utilization ts None) 1) eqn:E; [|reflexivity]. apply Qle_bool_iff in E. exfalso. apply (Qlt_not_le _ _ U E). }
  unfold approx_wcrt, exact_wcrt. rewrite E. split; reflexivity.
Qed.
Print Assumptions C39_overutilized.

Example C39_terminates_example : (ts_utilization gy_ex None < 1)%Q /\ (1 < ts_utilization [Task 3 4 4; Task 3 5 5] None)%Q.
Proof. split; vm_compute; reflexivity. Qed.

(** ** Finding: at full utilization, which the initial check admits, the search for the
    busy period never ends *)
Theorem C39_full_utilization_diverges : forall ts, Forall pos_task ts -> ts <> [] -> (ts_utilization ts None == 1)%Q ->
  forall fuel, approx_wcrt fuel ts = GYRunning /\ exact_wcrt fuel ts = GYRunning.
Proof. exact gy_diverges. Qed.
Print Assumptions C39_full_utilization_diverges.

Example C39_diverges_example : Forall pos_task [Task 1 2 2; Task 2 4 4] /\ (ts_utilization [Task 1 2 2; Task 2 4 4] None == 1)%Q.
Proof. split; [repeat constructor|reflexivity]. Qed.

(** ** The busy period returned is the first at which all released work is done *)
Theorem C39_busy_period : forall fuel ts L, Forall pos_task ts -> find_L_prime fuel ts 0 = Some L ->
  0 <= L /\ ts_rbf ts L <= L /\ forall x, 0 <= x -> ts_rbf ts x <= x -> L <= x.
Proof. intros fuel ts L P H. apply (find_L_prime_least ts P fuel 0 L); [lia|intros; assumption|exact H]. Qed.
Print Assumptions C39_busy_period.

Example C39_busy_period_example : find_L_prime 100 gy_ex 0 = Some 7.
Proof. vm_compute. reflexivity. Qed.

(** ** Finding: with equal deadlines (other than the two smallest) a response time can be
    minus infinity, or negative and hence below the cost of the task.  The index into the
    sorted tasks advances by at most one per point of change. *)
Theorem C39_refuted : exists ts1 ts2 l1 l2 l3 t1 t2 r r', Forall pos_task ts1 /\ Forall pos_task ts2 /\
  exact_wcrt 1000 ts1 = GYTimes l1 /\ approx_wcrt 1000 ts1 = GYTimes l1 /\ In (t1, None) l1 /\
  exact_wcrt 1000 ts2 = GYTimes l2 /\ approx_wcrt 1000 ts2 = GYTimes l3 /\ In (t2, Some r) l2 /\ In (t2, Some r') l3 /\ r < 0 /\ r' < 0 /\ 0 < t_cost t2.
Proof.
  exists [Task 1 100 2; Task 4 100 10; Task 4 100 10], [Task 1 100 2; Task 4 20 10; Task 4 20 10; Task 1 100 25].
  eexists. eexists. eexists. exists (Task 4 100 10), (Task 4 20 10). eexists. eexists. split; [repeat constructor|]. split; [repeat constructor|]. split; [vm_compute; reflexivity|]. split; [vm_compute; reflexivity|]. split; [cbn; auto|].
  split; [vm_compute; reflexivity|]. split; [vm_compute; reflexivity|]. split; [right; right; left; reflexivity|]. split; [right; right; left; reflexivity|]. split; [lia|]. split; [lia|cbn; lia].
Qed.
Print Assumptions C39_refuted.
