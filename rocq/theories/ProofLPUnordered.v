(** The unordered spin-lock program: how long a request waits, and that the time
    lost in a busy window is a feasible solution. *)
From Coq Require Import NArith ZArith QArith List Bool Lia Arith Lqa.
From Verif Require Import ModelLocking SpecLocking ModelLP ModelLPSpin ModelLPUnordered SpecLP SpecSpinFP ProofSpin ProofLockingMono ProofLP ProofLPSpin ProofSpinCount ProofSpinFP.
Import ListNotations.
Open Scope Z_scope.

(** * The wait-time bound *)
Lemma ceil_mono a a' b : (0 < b)%N -> (a <= a')%N -> (divide_with_ceil a b <= divide_with_ceil a' b)%N.
Proof.
  intros H L. destruct (N.le_gt_cases (divide_with_ceil a b) (divide_with_ceil a' b)) as [X|X]; [exact X|].
  pose proof (proj1 (divide_with_ceil_spec a b H (divide_with_ceil a' b)) X) as Y.
  assert (Z : (divide_with_ceil a' b < divide_with_ceil a' b)%N) by (apply (divide_with_ceil_spec a' b H); lia). lia.
Qed.

Lemma sum_over_le {A} (f g : A -> N) l : (forall a, In a l -> (f a <= g a)%N) -> (sum_over f l <= sum_over g l)%N.
Proof. induction l as [|a r IH]; intros H; [reflexivity|]. rewrite !sum_over_cons. specialize (IH (fun x Hx => H x (or_intror Hx))). specialize (H a (or_introl eq_refl)). lia. Qed.

Lemma remote_demand_le info ti q f g : (forall t r, In t info -> In r (requests_for t q) -> (f r <= g r)%N) -> (remote_demand info ti q f <= remote_demand info ti q g)%N.
Proof.
  intros H. apply sum_over_le. intros t T. apply filter_In in T. destruct T as [T _]. apply sum_over_le. intros r R. specialize (H t r T R). nia.
Qed.

Definition wait_delay (info : list taskinfo) (ti : taskinfo) (q : nat) (w : N) : N := remote_demand info ti q (fun r => get_max_num_requests r w).

Lemma wait_delay_mono info ti q w w' : wf_info info -> (w <= w')%N -> (wait_delay info ti q w <= wait_delay info ti q w')%N.
Proof.
  intros WF L. apply remote_demand_le. intros t r T R. apply in_requests_for in R. destruct R as [<- _]. unfold get_max_num_requests, get_max_num_jobs.
  apply N.mul_le_mono_r. apply ceil_mono; [apply WF; exact T|lia].
Qed.

Lemma wait_delay_start info ti q w : wf_info info -> (0 < w)%N -> (remote_demand info ti q (fun r => q_num (rb_req r)) <= wait_delay info ti q w)%N.
Proof.
  intros WF L. apply remote_demand_le. intros t r T R. apply in_requests_for in R. destruct R as [<- _]. unfold get_max_num_requests, get_max_num_jobs.
  assert (C : (0 < divide_with_ceil (w + ti_response (rb_task r)) (ti_period (rb_task r)))%N) by (apply divide_with_ceil_spec; [apply WF; exact T|lia]). nia.
Qed.

Lemma wait_loop_fixpoint delay period : forall fuel e x w, wait_loop fuel delay period e x = WaitBound w -> (x = delay e + 1)%N -> (w = delay w + 1)%N.
Proof.
  induction fuel as [|k IH]; intros e x w H X; cbn [wait_loop] in H; [discriminate|].
  destruct (N.leb_spec e period) as [P|P]; cbn [andb] in H; [|discriminate]. destruct (N.eqb_spec e x) as [Q|Q]; cbn [negb] in H.
  - injection H as <-. congruence.
  - apply (IH _ _ _ H). reflexivity.
Qed.

Lemma wait_loop_terminates delay period : (forall a b, (a <= b)%N -> (delay a <= delay b)%N) -> forall fuel e, (e <= delay e + 1)%N ->
  (N.to_nat period + 2 <= fuel + N.to_nat e)%nat -> fuel <> O -> wait_loop fuel delay period e (delay e + 1) <> OutOfFuel.
Proof.
  intros M. induction fuel as [|k IH]; intros e L F N0; [congruence|]. cbn [wait_loop].
  destruct (N.leb_spec e period) as [P|P]; cbn [andb]; [|discriminate]. destruct (N.eqb_spec e (delay e + 1)) as [Q|Q]; cbn [negb]; [discriminate|].
  apply IH; [|lia|lia]. specialize (M e (delay e + 1)%N L). lia.
Qed.

Definition wait_start (info : list taskinfo) (ti : taskinfo) (q : nat) : N := remote_demand info ti q (fun r => q_num (rb_req r)).

Lemma bound_wait_terminates info ti q : wf_info info -> bound_wait_time info ti q <> OutOfFuel.
Proof.
  intros WF. unfold bound_wait_time. fold (wait_start info ti q). change (fun estimate => remote_demand info ti q (fun r => get_max_num_requests r estimate)) with (wait_delay info ti q).
  replace (N.to_nat (ti_period ti) + 3)%nat with (S (N.to_nat (ti_period ti) + 2)) by lia. cbn [wait_loop].
  destruct (N.leb_spec 0 (ti_period ti)) as [P|P]; cbn [andb]; [|lia]. destruct (N.eqb_spec 0 (wait_start info ti q)) as [Q|Q]; cbn [negb]; [discriminate|].
  apply wait_loop_terminates; [intros a b L; apply wait_delay_mono; assumption| |lia|lia].
  pose proof (wait_delay_start info ti q (wait_start info ti q) WF ltac:(lia)) as S. fold (wait_start info ti q) in S. lia.
Qed.

Lemma bound_wait_cases info ti q w : bound_wait_time info ti q = WaitBound w -> (w = 0 /\ wait_start info ti q = 0)%N \/ (w = wait_delay info ti q w + 1)%N.
Proof.
  unfold bound_wait_time. fold (wait_start info ti q). change (fun estimate => remote_demand info ti q (fun r => get_max_num_requests r estimate)) with (wait_delay info ti q).
  replace (N.to_nat (ti_period ti) + 3)%nat with (S (N.to_nat (ti_period ti) + 2)) by lia. cbn [wait_loop].
  destruct (N.leb_spec 0 (ti_period ti)) as [P|P]; cbn [andb]; [|discriminate]. destruct (N.eqb_spec 0 (wait_start info ti q)) as [Q|Q]; cbn [negb]; intros H.
  - left. injection H as <-. auto.
  - right. apply (wait_loop_fixpoint _ _ _ _ _ _ H). reflexivity.
Qed.

(** * The constraints *)
Record unordered_ok (info : list taskinfo) (ti : taskinfo) (x : var -> Q) : Prop := {
  ok_u_direct : forall q tx, In q (get_all_resources info) -> In tx info -> ti_cluster tx <> ti_cluster ti ->
    (isum x ti BLOCKING_DIRECT (requests_for tx q) <= NQ (sum_over (fun r => get_max_num_requests r (wait_time_bound info ti q)) (requests_for tx q) * count_local_hp_reqs info ti q))%Q;
  ok_u_arrival : forall q tx, In q (get_all_resources info) -> In tx info -> ti_cluster tx <> ti_cluster ti ->
    (isum x ti BLOCKING_ARRIVAL (requests_for tx q) <= NQ (sum_over (fun r => get_max_num_requests r (wait_time_bound info ti q)) (requests_for tx q)) * x (arrival_enabled q))%Q }.

Lemma other_clusters_neq info ti c : In c (other_clusters info ti) -> c <> ti_cluster ti.
Proof. intros Hc. apply filter_In in Hc. destruct Hc as [_ Hc]. apply negb_true_iff, Nat.eqb_neq in Hc. exact Hc. Qed.

Lemma in_cluster info c t : In t (nth c (split_by_cluster info 0) []) -> In t info /\ ti_cluster t = c.
Proof. rewrite split_by_cluster_nth. intros H. apply filter_In in H. rewrite Nat.eqb_eq in H. exact H. Qed.

Lemma unordered_sat info ti x lp : unordered_ok info ti x -> sat x lp -> sat x (add_unordered_direct_blocking_constraints info ti lp).
Proof.
  intros [K1 K2] S. unfold add_unordered_direct_blocking_constraints. apply sat_fold; [|exact S]. intros l q Hq Sl. cbv zeta. apply sat_fold; [|exact Sl]. intros l1 c Hc Sl1. apply sat_fold; [|exact Sl1]. intros l2 tx Htx Sl2.
  apply in_cluster in Htx. destruct Htx as [Htx CX]. pose proof (other_clusters_neq info ti c Hc) as NC. rewrite <- CX in NC. unfold add_unordered_constraints_for. cbv zeta. destruct (has_terms _); [|exact Sl2].
  apply sat_inequality; [apply sat_inequality; [exact Sl2|]|].
  - intros _. rewrite evaluate_instances. auto.
  - intros _. rewrite evaluate_app, evaluate_instances. specialize (K2 q tx Hq Htx NC). unfold sub_term. cbn [evaluate fold_right fst snd].
    set (m := sum_over _ _) in *. set (a := x (arrival_enabled q)) in *. set (s := isum _ _ _ _) in *. setoid_replace (- NQ m * a + 0)%Q with (- (NQ m * a))%Q by ring. lra.
Qed.

Lemma unordered_obj info ti lp : lp_obj (add_unordered_direct_blocking_constraints info ti lp) = lp_obj lp.
Proof.
  unfold add_unordered_direct_blocking_constraints. apply fold_obj. intros l q. apply fold_obj. intros l1 c. apply fold_obj. intros l2 tx.
  unfold add_unordered_constraints_for. cbv zeta. destruct (has_terms _); [rewrite !add_ineq_obj; reflexivity|reflexivity].
Qed.

Lemma unordered_objective info ti x : (evaluate x (lp_obj (unordered_lp info ti)) == objective info ti x)%Q.
Proof. apply evaluate_objective. rewrite unordered_obj, common_obj. reflexivity. Qed.

Lemma unordered_feasible info ti x : common_ok info ti x -> unordered_ok info ti x -> (forall v, 0 <= x v <= 1)%Q -> feasible (unordered_lp info ti) x.
Proof. intros K M R. apply sat_feasible; [|exact R]. apply sat_objective. apply unordered_sat; [exact M|]. apply common_sat; [exact K|apply sat_empty]. Qed.

Lemma unordered_baseline_feasible info ti x : feasible (unordered_lp info ti) x -> feasible (baseline_lp info ti) x.
Proof.
  assert (X : extends (add_common_spinlock_constraints info ti lp_empty) (add_unordered_direct_blocking_constraints info ti (add_common_spinlock_constraints info ti lp_empty))).
  { unfold add_unordered_direct_blocking_constraints. apply extends_fold. intros lp q. cbv zeta. apply extends_fold. intros lp1 c. apply extends_fold. intros lp2 tx.
    unfold add_unordered_constraints_for. cbv zeta. destruct (has_terms _); [|apply extends_refl]. eapply extends_trans; apply extends_inequality. }
  destruct X as [X1 [X2 X3]]. intros [F1 F2 F3 F4]. constructor; [exact F1| | |].
  - intros v Hv. apply F2. apply X3. exact Hv.
  - intros e b H. apply (F3 e b). apply X1. exact H.
  - intros e b H. apply (F4 e b). apply X2. exact H.
Qed.

Lemma sum_over_one {A} (f : A -> N) a : sum_over f [a] = f a.
Proof. rewrite sum_over_cons. change (sum_over f []) with 0%N. lia. Qed.

(** requests of one task that hold a resource at some time of [s, s+w) *)
Definition overlaps (x : nat) (s : Z) (w : N) (hi : Z) (a : creq) : bool :=
  Nat.eqb (cr_task a) x && (Z.max s (cr_start a) <? Z.min (Z.min (s + Z.of_N w) hi) (cr_end a)).

Section Waiting.
Variables (info : list taskinfo) (i : nat) (ti : taskinfo) (E : execution) (ts : Z) (n : nat) (d : Z).
Hypothesis WF : wf_info info.
Hypothesis DP : distinct_priorities info.
Hypothesis SE : spin_execution info E.
Hypothesis HI : nth_error info i = Some ti.
Hypothesis HN : Z.of_nat n <= Z.of_N (ti_response ti).
Hypothesis HR : (ti_response ti <= ti_period ti)%N.
Let c := ti_cluster ti.
Let p := ti_prio ti.
Hypothesis HQ : quiet info E c p ts.
Hypothesis HB : busy info E c p ts (ts + Z.of_nat n).
Hypothesis HO : on_time info E d.
Hypothesis HD : ts + Z.of_nat n <= d.

Lemma overlaps_length x q tx r s w : nth_error info x = Some tx -> In r (ti_requests tx) -> q_res r = q ->
  (N.of_nat (length (filter (overlaps x s w (ts + Z.of_nat n)) (x_tr E q))) <= get_max_num_requests (RB tx r) w)%N.
Proof.
  intros X R Q. unfold get_max_num_requests, get_max_num_jobs; cbn [rb_task rb_req].
  apply (requests_bound (x_rel E x) (ti_period tx)) with (x := x) (lo := s - Z.of_N (ti_response tx)).
  - apply WF. eapply nth_error_In. exact X.
  - intros k. apply (se_rel _ _ SE x k tx X).
  - intros a A. apply filter_In in A. destruct A as [A O]. apply andb_true_iff in O. destruct O as [C T]. apply Nat.eqb_eq in C. apply Z.ltb_lt in T. split; [exact C|]. subst x.
    pose proof (se_times _ _ SE q a A).
    assert (P : pending E (cr_task a, cr_job a) (Z.max s (cr_start a))) by (apply (holding_pending info ti E n SE HR q); [exact A|lia]).
    pose proof (job_span info ti E n d HR HO (cr_task a) (cr_job a) tx (Z.max s (cr_start a)) s X P ltac:(lia) ltac:(lia)). lia.
  - intros k. eapply N.le_trans; [|apply (se_number _ _ SE q x k tx r X R Q)]. pose proof (filter_filter_le (is_job x k) (overlaps x s w (ts + Z.of_nat n)) (x_tr E q)). lia.
Qed.

(** the holder while a local request waits is remote *)
Lemma holder_remote q a b t tx tb : In a (x_tr E q) -> In b (x_tr E q) -> global_resource info q -> nth_error info (cr_task b) = Some tb -> ti_cluster tb = c ->
  cr_issue b <= t < cr_start b -> cr_start a <= t < cr_end a -> nth_error info (cr_task a) = Some tx -> ti_cluster tx <> c.
Proof.
  intros A B G TB CB WB HA TX C. pose proof (se_times _ _ SE q a A). pose proof (se_times _ _ SE q b B).
  assert (R1 : runs E info (jobof a) t = true) by (apply (se_nonpreemptive _ _ SE q a); [exact A|exact G|lia]).
  assert (R2 : runs E info (jobof b) t = true) by (apply (se_nonpreemptive _ _ SE q b); [exact B|exact G|lia]).
  apply (runs_iff E info (jobof a) _ tx TX) in R1. apply (runs_iff E info (jobof b) _ tb TB) in R2. rewrite C in R1. rewrite CB, R1 in R2. injection R2 as X1 X2.
  destruct (one_request info E SE q q a b t A B) as [_ ->]; [unfold jobof; congruence|lia|lia|lia].
Qed.

Lemma hold_len q a tx r : In a (x_tr E q) -> global_resource info q -> nth_error info (cr_task a) = Some tx -> In r (ti_requests tx) -> q_res r = q -> cr_end a - cr_start a <= Z.of_N (q_len r).
Proof.
  intros A G TX R Q. destruct (se_spec _ _ SE q a A) as [tx' [r' [X' [R' [Q' L]]]]]. rewrite TX in X'. injection X' as <-.
  rewrite (nodup_res tx r r'); [|apply WF; eapply nth_error_In; exact TX|exact R|exact R'|congruence]. pose proof (se_times _ _ SE q a A).
  assert (C : count (runs E info (jobof a)) (cr_start a) (Z.to_nat (cr_end a - cr_start a)) = Z.to_nat (cr_end a - cr_start a)).
  { pose proof (count_split (runs E info (jobof a)) (Z.to_nat (cr_end a - cr_start a)) (cr_start a)) as S. rewrite (count_false (fun t => negb (runs E info (jobof a) t))) in S; [lia|].
    intros t T. rewrite (se_nonpreemptive _ _ SE q a t A G); [reflexivity|lia]. }
  lia.
Qed.

Lemma wait_limited q b tb w t : In b (x_tr E q) -> global_resource info q -> nth_error info (cr_task b) = Some tb -> ti_cluster tb = c ->
  (w = wait_delay info ti q w + 1)%N -> cr_issue b <= t < cr_start b -> t < ts + Z.of_nat n -> t < cr_issue b + Z.of_N w.
Proof.
  clear DP HQ HB. intros B G TB CB FIX WB TW. destruct (Z.lt_ge_cases t (cr_issue b + Z.of_N w)) as [X|X]; [exact X|exfalso]. set (s := cr_issue b) in *.
  set (hs := fun tx => filter (overlaps (ti_id tx) s w (ts + Z.of_nat n)) (x_tr E q)).
  set (L := concat (map (fun r => hs (rb_task r)) (concat (map (fun tx => requests_for tx q) (remote_tasks info ti))))).
  assert (COV : (count (fun _ => true) s (N.to_nat w) <= nsum (fun a => count (holding a) s (N.to_nat w)) L)%nat).
  { apply count_cover. intros u U _. destruct (se_busy _ _ SE q b u B G ltac:(fold s; lia)) as [a [A TA]]. exists a. split; [|apply holding_iff; exact TA].
    destruct (se_spec _ _ SE q a A) as [tx [r [TX [R [Q _]]]]]. destruct (wf_nth info _ tx WF TX) as [ID IN].
    apply in_concat. exists (hs tx). split.
    - apply in_map_iff. exists (RB tx r). split; [reflexivity|]. apply in_concat. exists (requests_for tx q). split; [|apply in_requests_for; cbn; auto].
      apply (in_map (fun tx => requests_for tx q)). apply filter_In. split; [exact IN|]. apply negb_true_iff, Nat.eqb_neq. apply (holder_remote q a b u tx tb A B G TB CB); [fold s; lia|exact TA|exact TX].
    - apply filter_In. split; [exact A|]. unfold overlaps. rewrite ID, Nat.eqb_refl. cbn [andb]. apply Z.ltb_lt. lia. }
  assert (ALL : count (fun _ => true) s (N.to_nat w) = N.to_nat w).
  { pose proof (count_split (fun _ => true) (N.to_nat w) s) as S. rewrite (count_false (fun _ => negb true)) in S by reflexivity. lia. }
  assert (DEM : (N.of_nat (nsum (fun a => count (holding a) s (N.to_nat w)) L) <= wait_delay info ti q w)%N).
  { unfold L. rewrite nsum_concat, nsum_concat. apply nsum_sum_over. intros tx TX. apply filter_In in TX. destruct TX as [TX _]. pose proof (wf_id info tx WF TX) as X1.
    apply nsum_sum_over. intros r R. apply in_requests_for in R. destruct R as [RT [RI RQ]]. rewrite RT.
    assert (NC : (nsum (fun a => count (holding a) s (N.to_nat w)) (hs tx) <= length (hs tx) * N.to_nat (rb_len r))%nat).
    { apply nsum_const. intros a A. apply filter_In in A. destruct A as [A O]. apply andb_true_iff in O. destruct O as [O _]. apply Nat.eqb_eq in O. rewrite <- O in X1.
      pose proof (hold_len q a tx (rb_req r) A G X1 RI RQ) as HL. pose proof (se_times _ _ SE q a A).
      pose proof (count_window (holding a) s (N.to_nat w) (cr_start a) (cr_end a) ltac:(lia) (fun t _ H => proj1 (holding_iff a t) H)) as CW. pose proof (count_le_n (holding a) (Z.to_nat (cr_end a - cr_start a)) (cr_start a)). unfold rb_len. lia. }
    pose proof (overlaps_length (ti_id tx) q tx (rb_req r) s w X1 RI RQ) as OL. fold (hs tx) in OL. replace (RB tx (rb_req r)) with r in OL by (rewrite <- RT; destruct r; reflexivity).
    apply Nat2N_le in NC. rewrite Nat2N.inj_mul, N2Nat.id in NC. eapply N.le_trans; [exact NC|]. rewrite N.mul_comm. apply N.mul_le_mono_l. exact OL. }
  lia.
Qed.

Lemma local_total q : (N.of_nat (length (concat (map (fun th => local_reqs E ts n q (ti_id th)) (ti :: local_hp info ti)))) <= count_local_hp_reqs info ti q)%N.
Proof.
  rewrite nsum_length. cbn [nsum fold_right map]. fold (nsum (fun b => length (local_reqs E ts n q (ti_id b))) (local_hp info ti)). unfold count_local_hp_reqs.
  assert (L1 : (N.of_nat (length (local_reqs E ts n q (ti_id ti))) <= sum_over (fun r => q_num (rb_req r)) (requests_for ti q))%N).
  { rewrite (proj1 (wf_nth info i ti WF HI)). pose proof (local_reqs_length info ti E ts n WF SE HN HR q i ti HI) as L.
    assert (U : (uni_fp_local_get_max_num_jobs ti (ti_response ti) <= 1)%N).
    { destruct (N.le_gt_cases (uni_fp_local_get_max_num_jobs ti (ti_response ti)) 1) as [Y|Y]; [exact Y|]. apply divide_with_ceil_spec in Y; [lia|apply WF; eapply nth_error_In; exact HI]. }
    pose proof (num_requests_sum ti n HR ti q 1) as S. assert (EQ : sum_over (fun r => (1 * q_num (rb_req r))%N) (requests_for ti q) = sum_over (fun r => q_num (rb_req r)) (requests_for ti q)).
    { generalize (requests_for ti q). clear. intros l. induction l as [|r rr IH]; [reflexivity|]. rewrite !sum_over_cons, IH. lia. } nia. }
  assert (L2 : (N.of_nat (nsum (fun b => length (local_reqs E ts n q (ti_id b))) (local_hp info ti)) <= sum_over (fun t => sum_over (fun r => get_max_num_requests_in_busy_window r (ti_response ti)) (requests_for t q)) (local_hp info ti))%N).
  { apply nsum_sum_over. intros th TH. apply filter_In in TH. destruct TH as [TH _]. pose proof (wf_id info th WF TH) as K. eapply N.le_trans; [apply (local_reqs_length info ti E ts n WF SE HN HR q (ti_id th) th K)|].
    eapply N.le_trans; [apply (num_requests_sum ti n HR)|].
    assert (G : forall l, (forall r, In r l -> rb_task r = th) -> sum_over (fun r => (uni_fp_local_get_max_num_jobs th (ti_response ti) * q_num (rb_req r))%N) l = sum_over (fun r => get_max_num_requests_in_busy_window r (ti_response ti)) l).
    { induction l as [|r rr IH]; intros H; [reflexivity|]. rewrite !sum_over_cons, IH by (intros r0 H0; apply H; right; exact H0). unfold get_max_num_requests_in_busy_window. rewrite (H r (or_introl eq_refl)). reflexivity. }
    rewrite G; [lia|]. intros r R. apply in_requests_for in R. apply R. }
  lia.
Qed.

(** a request a that a local request b waits for inside the window *)
Definition waits_for (q : nat) (b a : creq) : Prop :=
  In b (x_tr E q) /\ global_resource info q /\ (exists tb, nth_error info (cr_task b) = Some tb /\ ti_cluster tb = c) /\
  exists t, ts <= t < ts + Z.of_nat n /\ cr_issue b <= t < cr_start b /\ cr_start a <= t < cr_end a.

Lemma wait_count_limited q tx r l B w : In tx info -> In r (requests_for tx q) -> NoDup l ->
  (forall a, In a l -> In a (insts E ts n (ti_id tx) q) /\ exists b, In b B /\ waits_for q b a) ->
  (forall b a t, waits_for q b a -> cr_issue b <= t < cr_start b -> t < ts + Z.of_nat n -> t < cr_issue b + Z.of_N w) ->
  (N.of_nat (length l) <= get_max_num_requests r w * N.of_nat (length B))%N.
Proof.
  intros TX R ND M LIM. apply in_requests_for in R. destruct R as [RT [RI RQ]]. pose proof (wf_id info tx WF TX) as X.
  assert (RB' : RB tx (rb_req r) = r) by (rewrite <- RT; destruct r; reflexivity).
  pose proof (cover_count (fun b => overlaps (ti_id tx) (cr_issue b) w (ts + Z.of_nat n)) l B) as CC.
  assert (C1 : (length l <= nsum (fun b => length (filter (overlaps (ti_id tx) (cr_issue b) w (ts + Z.of_nat n)) l)) B)%nat).
  { apply CC. intros a A. destruct (M a A) as [AI [b [BI WF']]]. pose proof WF' as [BT [G [[tb [TB CB]] [t [T [TW TA]]]]]]. exists b. split; [exact BI|].
    apply in_insts in AI. destruct AI as [_ [TT _]]. unfold overlaps. rewrite TT, Nat.eqb_refl. cbn [andb]. apply Z.ltb_lt.
    pose proof (LIM b a t WF' TW ltac:(lia)). lia. }
  assert (C2 : (nsum (fun b => length (filter (overlaps (ti_id tx) (cr_issue b) w (ts + Z.of_nat n)) l)) B <= length B * N.to_nat (get_max_num_requests r w))%nat).
  { apply nsum_const. intros b _. pose proof (overlaps_length (ti_id tx) q tx (rb_req r) (cr_issue b) w X RI RQ) as OL. rewrite RB' in OL.
    assert (IL : (length (filter (overlaps (ti_id tx) (cr_issue b) w (ts + Z.of_nat n)) l) <= length (filter (overlaps (ti_id tx) (cr_issue b) w (ts + Z.of_nat n)) (x_tr E q)))%nat).
    { apply NoDup_incl_length; [apply NoDup_filter; exact ND|]. intros a A. apply filter_In in A. apply filter_In. split; [|apply A]. destruct (M a (proj1 A)) as [AI _]. apply in_insts in AI. apply AI. }
    lia. }
  assert (C3 : (length l <= length B * N.to_nat (get_max_num_requests r w))%nat) by lia. apply Nat2N_le in C3. rewrite Nat2N.inj_mul, N2Nat.id in C3. lia.
Qed.

Lemma wait_count_response q tx r l B : In tx info -> In r (requests_for tx q) -> NoDup l ->
  (forall a, In a l -> In a (insts E ts n (ti_id tx) q) /\ exists b, In b B /\ waits_for q b a) ->
  (N.of_nat (length l) <= get_max_num_requests r (ti_response ti) * N.of_nat (length B))%N.
Proof.
  intros TX R ND M. apply in_requests_for in R. destruct R as [RT [RI RQ]]. pose proof (wf_id info tx WF TX) as X.
  assert (RB' : RB tx (rb_req r) = r) by (rewrite <- RT; destruct r; reflexivity).
  destruct l as [|a0 l0] eqn:EL; [cbn; lia|]. rewrite <- EL in *.
  destruct (M a0) as [_ [b0 [B0 _]]]; [rewrite EL; left; reflexivity|].
  assert (NB : (1 <= N.of_nat (length B))%N) by (destruct B; [destruct B0|cbn [length]; lia]).
  pose proof (insts_length info ti E ts n d WF SE HN HR HO HD (ti_id tx) q tx (rb_req r) X RI RQ) as IL. rewrite RB' in IL.
  assert (LL : (length l <= length (insts E ts n (ti_id tx) q))%nat) by (apply NoDup_incl_length; [exact ND|intros a A; apply (M a A)]).
  apply Nat2N_le in LL. rewrite <- (N.mul_1_r (N.of_nat (length l))). apply N.mul_le_mono; [lia|exact NB].
Qed.

Lemma wait_count q tx r l B : In tx info -> ti_cluster tx <> c -> In r (requests_for tx q) -> NoDup l ->
  (forall a, In a l -> In a (insts E ts n (ti_id tx) q) /\ exists b, In b B /\ waits_for q b a) ->
  ((0 < length l)%nat -> (0 < rb_len r * q_num (rb_req r))%N) ->
  (N.of_nat (length l) <= get_max_num_requests r (wait_time_bound info ti q) * N.of_nat (length B))%N.
Proof.
  intros TX NC R ND M LP. unfold wait_time_bound. destruct (bound_wait_time info ti q) as [w| |] eqn:BW.
  - destruct (bound_wait_cases info ti q w BW) as [[-> Z0]|FIX].
    + unfold wait_start, remote_demand in Z0.
      assert (L : (rb_len r * q_num (rb_req r) <= sum_over (fun tx => sum_over (fun r => (rb_len r * q_num (rb_req r))%N) (requests_for tx q)) (remote_tasks info ti))%N).
      { eapply N.le_trans; [|apply (sum_over_in _ (remote_tasks info ti) tx)].
        - apply (sum_over_in (fun r => (rb_len r * q_num (rb_req r))%N) (requests_for tx q) r). exact R.
        - apply filter_In. split; [exact TX|]. apply negb_true_iff, Nat.eqb_neq. exact NC. }
      cbv beta in *. destruct l as [|a l0]; [cbn; lia|]. specialize (LP ltac:(cbn [length]; lia)). lia.
    + apply (wait_count_limited q tx r l B w TX R ND M). intros b a t [BT [G [[tb [TB CB]] _]]] TW TN. apply (wait_limited q b tb w t BT G TB CB FIX TW TN).
  - apply (wait_count_response q tx r l B TX R ND M).
  - destruct (bound_wait_terminates info ti q WF BW).
Qed.

Lemma requests_for_nodup tx q : In tx info -> NoDup (map (fun r => ti_id (rb_task r)) (requests_for tx q)).
Proof.
  intros TX. pose proof (nodup_requests_for tx q) as L. specialize (L (proj2 (proj2 WF tx TX))). destruct (requests_for tx q) as [|r [|r' l]]; cbn in *; [constructor|constructor; [intros []|constructor]|lia].
Qed.

Lemma pos_len bt q a tx r : (bt = BLOCKING_DIRECT \/ bt = BLOCKING_ARRIVAL) -> In a (x_tr E q) -> nth_error info (cr_task a) = Some tx -> In r (ti_requests tx) -> q_res r = q ->
  pos info ti E ts n bt q a = true -> (0 < q_len r * q_num r)%N.
Proof.
  intros BT A X R Q P. pose proof (cnt_len info ti E ts n WF SE HR q a A) as L. rewrite (len_of_spec info WF (cr_task a) q tx r X R Q) in L.
  destruct (request_exists info ti E n SE HR q a tx A X) as [r' [R' [Q' N']]]. rewrite (nodup_res tx r r' (proj2 (proj2 WF tx (nth_error_In _ _ X))) R R') in * by congruence.
  unfold pos in P. apply Nat.ltb_lt in P. apply N.mul_pos_pos; [|exact N']. destruct BT as [-> | ->]; lia.
Qed.

Lemma single_insts tx q r : In tx info -> requests_for tx q = [r] -> all_insts E ts n q (requests_for tx q) = insts E ts n (ti_id tx) q.
Proof.
  intros TX EQ. assert (R : In r (requests_for tx q)) by (rewrite EQ; left; reflexivity). apply in_requests_for in R. destruct R as [RT _].
  unfold all_insts. rewrite EQ. cbn [map concat]. rewrite app_nil_r, RT. reflexivity.
Qed.

Lemma requests_for_cases tx q : In tx info -> requests_for tx q = [] \/ exists r, requests_for tx q = [r].
Proof.
  intros TX. pose proof (nodup_requests_for tx q (proj2 (proj2 WF tx TX))) as L. destruct (requests_for tx q) as [|r [|r' l]]; cbn in *; [auto|eauto|lia].
Qed.

(** the requests of the task and of local higher-priority tasks in the window *)
Definition local_all (q : nat) : list creq := concat (map (fun th => local_reqs E ts n q (ti_id th)) (ti :: local_hp info ti)).

Lemma direct_waits q a : pos info ti E ts n BLOCKING_DIRECT q a = true -> exists b, In b (local_all q) /\ waits_for q b a.
Proof.
  intros P. destruct (pos_direct info ti E ts n SE HR HQ q a P) as [t [[h k] [b [th [T [S [LO [TA [B [J [TB [G [K [C [PR [RE PE]]]]]]]]]]]]]]]].
  cbn [fst snd] in *. unfold win in T. destruct (task_in info WF h th K) as [TH ID]. injection J as J1 J2. exists b. split.
  - unfold local_all. apply in_concat. exists (local_reqs E ts n q (ti_id th)). split.
    + apply in_map_iff. exists th. split; [reflexivity|]. destruct (N.eq_dec (ti_prio th) p) as [EQ'|NE].
      * left. apply DP; [apply (task_in info WF i ti HI)|exact TH|symmetry; exact C|symmetry; exact EQ'].
      * right. unfold local_hp. apply filter_In. split; [exact TH|]. rewrite C, Nat.eqb_refl. cbn. apply N.ltb_lt. unfold p in NE. lia.
    + apply in_local_reqs. rewrite ID, J1, J2. repeat split; [exact B|lia|lia].
  - repeat split; [exact B|exact G|exists th; rewrite J1; auto|]. exists t. auto.
Qed.

Lemma arrival_waits q a tx b0 : In a (x_tr E q) -> nth_error info (cr_task a) = Some tx -> ti_cluster tx <> c -> pos info ti E ts n BLOCKING_ARRIVAL q a = true ->
  blocker info ti E ts q b0 -> waits_for q b0 a.
Proof.
  intros A X NC P B0. destruct (pos_true info ti E ts n _ _ _ P) as [u [U CH]]. cbn [chg] in CH. destruct (charge_a_blocker info ti E ts n SE HR HB q a u A U CH) as [b [B Y]].
  destruct (blocker_unique info ti E ts n SE HR q b q b0 B B0) as [_ ->]. destruct Y as [[Y1 [Y2 [Y3 _]]]|EQ'].
  - repeat split; [apply B|exact Y3|apply B|]. exists u. unfold win in U. auto.
  - subst b0. destruct B as [_ [_ [[k [K' C']] _]]]. rewrite X in K'. injection K' as <-. exfalso. apply NC. exact C'.
Qed.

Lemma unordered_holds : unordered_ok info ti (assign info ti E ts n).
Proof.
  constructor; intros q tx _ TX NC; fold c in NC; pose proof (wf_id info tx WF TX) as X.
  - eapply Qle_trans; [apply (isum_direct info ti E ts n WF SE HR q); intros r R; apply in_requests_for in R; apply R|]. unfold NQ. rewrite <- Zle_Qle.
    destruct (requests_for_cases tx q TX) as [EQ|[r EQ]]; [rewrite EQ; cbn; lia|]. rewrite (single_insts tx q r TX EQ), EQ, sum_over_one.
    assert (RI : In r (requests_for tx q)) by (rewrite EQ; left; reflexivity). pose proof RI as RI'. apply in_requests_for in RI'. destruct RI' as [RT [RR RQ]].
    set (l := filter (pos info ti E ts n BLOCKING_DIRECT q) (insts E ts n (ti_id tx) q)).
    set (W := local_all q).
    assert (L : (N.of_nat (length l) <= get_max_num_requests r (wait_time_bound info ti q) * N.of_nat (length W))%N).
    { apply (wait_count q tx r l W TX NC RI).
      - apply NoDup_filter, NoDup_filter, (tr_nodup info). exact SE.
      - intros a A. apply filter_In in A. destruct A as [A P]. split; [exact A|]. apply (direct_waits q a P).
      - intros LN. destruct l as [|a l'] eqn:EL; [cbn in LN; lia|]. assert (A : In a l) by (rewrite EL; left; reflexivity). rewrite EL in A. rewrite <- EL in A. apply filter_In in A. destruct A as [A P]. apply in_insts in A. destruct A as [A [TT _]].
        unfold rb_len. apply (pos_len BLOCKING_DIRECT q a tx (rb_req r)); [left; reflexivity|exact A|rewrite TT; exact X|exact RR|exact RQ|exact P]. }
    pose proof (local_total q) as LT. fold W in LT. assert (L' : (N.of_nat (length l) <= get_max_num_requests r (wait_time_bound info ti q) * count_local_hp_reqs info ti q)%N).
    { eapply N.le_trans; [exact L|]. apply N.mul_le_mono_l. exact LT. }
    lia.
  - eapply Qle_trans; [apply (isum_assign info ti E ts n HR _ q); [right; reflexivity|intros r R; apply in_requests_for in R; apply R]|].
    change (assign info ti E ts n (arrival_enabled q)) with (if enabled info ti E ts n q then 1%Q else 0%Q).
    destruct (requests_for_cases tx q TX) as [EQ|[r EQ]].
    { rewrite EQ. cbn. destruct (enabled info ti E ts n q); apply Qle_refl. }
    rewrite (single_insts tx q r TX EQ), EQ.
    assert (RI : In r (requests_for tx q)) by (rewrite EQ; left; reflexivity). pose proof RI as RI'. apply in_requests_for in RI'. destruct RI' as [RT [RR RQ]].
    destruct (enabled info ti E ts n q) eqn:EN.
    + destruct (enabled_blocker info ti E ts n SE HR HB q EN) as [b0 B0].
      eapply Qle_trans; [apply (qsum_pos _ (pos info ti E ts n BLOCKING_ARRIVAL q))|].
      * intros a A. apply part_le1; [exact WF|exact SE|exact HR|]. apply in_insts in A. apply A.
      * intros a _ P0. apply part_pos; assumption.
      * rewrite Qmult_1_r. unfold NQ. rewrite <- Zle_Qle, sum_over_one.
        set (l := filter (pos info ti E ts n BLOCKING_ARRIVAL q) (insts E ts n (ti_id tx) q)).
        assert (L : (N.of_nat (length l) <= get_max_num_requests r (wait_time_bound info ti q) * N.of_nat (length [b0]))%N).
        { apply (wait_count q tx r l [b0] TX NC RI).
          - apply NoDup_filter, NoDup_filter, (tr_nodup info). exact SE.
          - intros a A. apply filter_In in A. destruct A as [A P]. split; [exact A|]. apply in_insts in A. destruct A as [A [TT _]].
            exists b0. split; [left; reflexivity|]. apply (arrival_waits q a tx b0 A); [rewrite TT; exact X|exact NC|exact P|exact B0].
          - intros LN. destruct l as [|a l'] eqn:EL; [cbn in LN; lia|]. assert (A : In a l) by (rewrite EL; left; reflexivity). rewrite EL in A. rewrite <- EL in A. apply filter_In in A. destruct A as [A P]. apply in_insts in A. destruct A as [A [TT _]].
            unfold rb_len. apply (pos_len BLOCKING_ARRIVAL q a tx (rb_req r)); [right; reflexivity|exact A|rewrite TT; exact X|exact RR|exact RQ|exact P]. }
        cbn [length] in L. lia.
    + rewrite qsum_zero; [rewrite Qmult_0_r; apply Qle_refl|]. intros a A. apply part_pos; [exact HR|]. destruct (pos info ti E ts n BLOCKING_ARRIVAL q a) eqn:P; [|reflexivity].
      exfalso. assert (Y : enabled info ti E ts n q = true); [|congruence]. apply existsb_exists. exists a. split; [apply in_insts in A; apply A|exact P].
Qed.
End Waiting.

Lemma unordered_blocking info i ti E ts n d opt : wf_info info -> distinct_priorities info -> spin_execution info E -> nth_error info i = Some ti ->
  Z.of_nat n <= Z.of_N (ti_response ti) -> (ti_response ti <= ti_period ti)%N -> quiet info E (ti_cluster ti) (ti_prio ti) ts ->
  busy info E (ti_cluster ti) (ti_prio ti) ts (ts + Z.of_nat n) -> on_time info E d -> ts + Z.of_nat n <= d -> optimum (unordered_lp info ti) opt ->
  Z.of_nat (count (lost info E (ti_cluster ti) (ti_prio ti)) ts n) <= lrint opt.
Proof.
  intros WF DP SE HI HN HR HQ HB HO HD [_ OPT]. apply lrint_mono.
  eapply Qle_trans; [apply (lost_le_objective info i ti E ts n d); assumption|]. rewrite <- unordered_objective. apply OPT. apply unordered_feasible.
  - apply (common_holds info i ti E ts n d); assumption.
  - apply (unordered_holds info i ti E ts n d); assumption.
  - intros v. apply assign_range; assumption.
Qed.
