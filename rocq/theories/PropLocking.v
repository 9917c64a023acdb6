(** C28 and C29: blocking bounds for shared resources. *)
From Coq Require Import NArith ZArith List Bool Sorted Permutation Lia Arith.
From Verif Require Import ModelLocking SpecLocking ProofLocking ProofSpin ProofLockingMono.
Import ListNotations.
Open Scope N_scope.

(** * C28: bound_blocking is the exact worst case over request selections *)

Theorem C28_safe : forall cs interval max_total per_source exclude_tsk min_priority sel,
  (forall r, In r cs -> 0 < ti_period (rb_task r)) ->
  let cont := sort_by_request_length cs in
  let excluded t := Nat.eqb (ti_id t) exclude_tsk || (ti_prio t <? min_priority) in
  selection cont excluded interval max_total per_source sel ->
  total_length sel <= i_len (bound_blocking cont interval max_total per_source exclude_tsk min_priority) /\
  N.of_nat (length sel) <= i_count (bound_blocking cont interval max_total per_source exclude_tsk min_priority).
Proof.
  exact (fun cs interval mt ps ex mp sel Hp => bb_loop_safe _ interval ps (sort_by_request_length cs) mt sel
    (fun r Hr => Hp r (Permutation_in _ (Permutation_sym (sort_len_perm rb_len cs)) Hr)) (sort_len_sorted rb_len cs)).
Qed.
Print Assumptions C28_safe.

Theorem C28_tight : forall cs interval max_total per_source exclude_tsk min_priority,
  (forall r, In r cs -> 0 < ti_period (rb_task r)) ->
  let cont := sort_by_request_length cs in
  let excluded t := Nat.eqb (ti_id t) exclude_tsk || (ti_prio t <? min_priority) in
  exists sel, selection cont excluded interval max_total per_source sel /\
  total_length sel = i_len (bound_blocking cont interval max_total per_source exclude_tsk min_priority) /\
  N.of_nat (length sel) = i_count (bound_blocking cont interval max_total per_source exclude_tsk min_priority).
Proof.
  exact (fun cs interval mt ps ex mp Hp => bb_loop_tight _ interval ps (sort_by_request_length cs) mt
    (fun r Hr => Hp r (Permutation_in _ (Permutation_sym (sort_len_perm rb_len cs)) Hr))).
Qed.
Print Assumptions C28_tight.

(** the variant that excludes all tasks of the cluster *)
Theorem C28_cluster_exact : forall cs interval max_total per_source whole tsk,
  (forall r, In r cs -> 0 < ti_period (rb_task r)) ->
  let cont := sort_by_request_length cs in
  let excluded t := Nat.eqb (ti_id t) (ti_id tsk) || (whole && Nat.eqb (ti_cluster t) (ti_cluster tsk)) in
  (forall sel, selection cont excluded interval max_total per_source sel ->
    total_length sel <= i_len (bound_blocking_cluster cont interval max_total per_source whole tsk) /\
    N.of_nat (length sel) <= i_count (bound_blocking_cluster cont interval max_total per_source whole tsk)) /\
  exists sel, selection cont excluded interval max_total per_source sel /\
    total_length sel = i_len (bound_blocking_cluster cont interval max_total per_source whole tsk) /\
    N.of_nat (length sel) = i_count (bound_blocking_cluster cont interval max_total per_source whole tsk).
Proof.
  exact (fun cs interval mt ps wh tsk Hp => conj
    (fun sel => bb_loop_safe _ interval ps (sort_by_request_length cs) mt sel
      (fun r Hr => Hp r (Permutation_in _ (Permutation_sym (sort_len_perm rb_len cs)) Hr)) (sort_len_sorted rb_len cs))
    (bb_loop_tight _ interval ps (sort_by_request_length cs) mt
      (fun r Hr => Hp r (Permutation_in _ (Permutation_sym (sort_len_perm rb_len cs)) Hr)))).
Qed.
Print Assumptions C28_cluster_exact.

(** sorting keeps all requests *)
Theorem C28_sorted : forall cs, Permutation cs (sort_by_request_length cs) /\
  StronglySorted (fun a b => q_len (rb_req b) <= q_len (rb_req a)) (sort_by_request_length cs).
Proof. exact (fun cs => conj (sort_len_perm rb_len cs) (sort_len_sorted rb_len cs)). Qed.
Print Assumptions C28_sorted.

(** splitting neither loses nor adds requests *)
Theorem C28_split : forall info c q r,
  In r (nth q (nth c (cluster_contention info) []) []) <->
  In (rb_task r) info /\ ti_cluster (rb_task r) = c /\ In (rb_req r) (ti_requests (rb_task r)) /\ q_res (rb_req r) = q.
Proof. exact (fun info c q r => eq_ind_r (fun l => In r l <-> _) (in_contention info c q r) (cluster_contention_nth info c q)). Qed.
Print Assumptions C28_split.

(** the job count is the exact maximum over sporadic job sequences *)
Theorem C28_jobs_safe : forall t rel comp x interval jobs, 0 < ti_period t ->
  sporadic_jobs (ti_period t) (ti_response t) rel comp -> NoDup jobs ->
  (forall k, In k jobs -> pending_in rel comp x (Z.of_N interval) k) ->
  N.of_nat (length jobs) <= get_max_num_jobs t interval.
Proof. exact jobs_safe. Qed.
Print Assumptions C28_jobs_safe.

Theorem C28_jobs_tight : forall t x interval, 0 < ti_period t -> 0 < interval ->
  exists rel comp jobs, sporadic_jobs (ti_period t) (ti_response t) rel comp /\ NoDup jobs /\
  (forall k, In k jobs -> pending_in rel comp x (Z.of_N interval) k) /\
  N.of_nat (length jobs) = get_max_num_jobs t interval.
Proof. exact jobs_tight. Qed.
Print Assumptions C28_jobs_tight.

(** the two-level bound of the k-exclusion protocol covers every selection with
    limits per source, per cluster and overall *)
Theorem C28_kx_safe : forall clusters limits res interval ex cap sels,
  (forall rs r, In rs clusters -> In r (nth res rs []) -> 0 < ti_period (rb_task r)) ->
  (forall rs, In rs clusters -> StronglySorted (fun a b => q_len (rb_req b) <= q_len (rb_req a)) (nth res rs [])) ->
  kx_selection (map (fun p => (nth res (fst p) [], snd p)) (combine clusters limits)) ex interval cap sels ->
  total_length (concat sels) <= i_len (bb_limited (sort_limited (contention_from_all_clusters clusters limits res interval ex)) cap inter0).
Proof.
  intros clusters limits res interval ex cap sels Hp Hs H. rewrite kx_contention_eq.
  apply (kx_safe _ ex interval cap sels); [| |exact H].
  - intros p r Hin Hr. apply in_map_iff in Hin. destruct Hin as [[rs lim] [<- Hin]]. apply (Hp rs r); [apply in_combine_l in Hin; exact Hin|exact Hr].
  - intros p Hin. apply in_map_iff in Hin. destruct Hin as [[rs lim] [<- Hin]]. apply Hs. apply in_combine_l in Hin. exact Hin.
Qed.
Print Assumptions C28_kx_safe.

Definition ex_t0 := TI 0 0 10 10 10 0 3 [Req 0 1 2 false].
Definition ex_t1 := TI 1 1 20 20 20 0 5 [Req 0 1 3 false; Req 1 2 1 false].
Definition ex_t2 := TI 2 0 15 15 15 1 6 [Req 0 2 4 false].
Definition ex_info := [ex_t0; ex_t1; ex_t2].

(** a selection with three requests of two tasks that is the worst case *)
Example C28_case : selection (sort_by_request_length (nth 0 (split_by_resource ex_info) []))
    (fun t => Nat.eqb (ti_id t) 0 || (ti_prio t <? 0)) 10 3 2 [(0%nat, 4); (0%nat, 4); (1%nat, 3)] /\
  bound_blocking (sort_by_request_length (nth 0 (split_by_resource ex_info) [])) 10 3 2 0 0 = Inter 3 11.
Proof.
  split; [|vm_compute; reflexivity].
  change (sort_by_request_length (nth 0 (split_by_resource ex_info) [])) with [RB ex_t2 (Req 0 2 4 false); RB ex_t1 (Req 0 1 3 false); RB ex_t0 (Req 0 1 2 false)].
  constructor.
  - intros k l [H|[H|[H|[]]]]; injection H as <- <-; eexists; (split; [reflexivity|]); split; reflexivity || (vm_compute; discriminate).
  - intros k r H. destruct k as [|[|[|k]]]; cbn in H; [injection H as <-|injection H as <-|injection H as <-|destruct k; discriminate].
    + exists 2. split; [vm_compute; discriminate|right; vm_compute; reflexivity].
    + exists 2. split; [vm_compute; discriminate|right; vm_compute; reflexivity].
    + exists 0. split; [vm_compute; discriminate|left; reflexivity].
  - intros k. destruct k as [|[|k]]; [vm_compute; discriminate|vm_compute; discriminate|]. unfold occurrences; cbn. lia.
  - vm_compute. discriminate.
Qed.

Example C28_case_jobs : get_max_num_jobs ex_t2 10 = 2 /\ sporadic_jobs 15 15 (fun k => -15 + Z.of_nat k * 15)%Z (fun k => Z.of_nat k * 15)%Z.
Proof. split; [vm_compute; reflexivity|]. split; intros k; lia. Qed.

(** * C29: spin-lock bounds are safe, monotone and zero without contention *)

Theorem C29_spin_safe : forall info procs irq rel comp tr i k tsk rs,
  wf_info info ->
  (forall t, In t info -> sporadic_jobs (ti_period t) (ti_response t) (rel (ti_id t)) (comp (ti_id t))) ->
  (forall r, fifo_execution info procs irq rel comp r (tr r)) ->
  nth_error info i = Some tsk -> NoDup rs ->
  exists b, nth_error (task_fair_mutex_bounds info procs irq) i = Some b /\
  (total_spin i k tr rs <= Z.of_N (i_len (bb_remote b)))%Z.
Proof.
  intros info procs irq rel comp tr i k tsk rs W SJ H Hi ND. destruct (omlp_result info procs irq i tsk Hi) as [b [B1 [B2 _]]].
  exists b. split; [exact B1|]. rewrite B2. destruct (wf_nth info i tsk W Hi) as [<- Hin]. apply (total_spin_safe info procs irq rel comp tr tsk k rs W SJ H Hin ND).
Qed.
Print Assumptions C29_spin_safe.

(** a request, from its issue to its completion, takes at most the request span *)
Theorem C29_span_safe : forall info procs irq rel comp tr i tsk r c,
  wf_info info ->
  (forall t, In t info -> sporadic_jobs (ti_period t) (ti_response t) (rel (ti_id t)) (comp (ti_id t))) ->
  fifo_execution info procs irq rel comp r tr ->
  nth_error info i = Some tsk -> In c tr -> cr_task c = i ->
  exists b, nth_error (task_fair_mutex_bounds info procs irq) i = Some b /\
  (cr_end c - cr_issue c <= Z.of_N (i_len (bb_span b)))%Z.
Proof.
  intros info procs irq rel comp tr i tsk r c W SJ H Hi Hc Ec. destruct (omlp_result info procs irq i tsk Hi) as [b [B1 [_ [B3 _]]]].
  exists b. split; [exact B1|]. rewrite B3. destruct (wf_nth info i tsk W Hi) as [Ei Hin]. apply (span_safe info procs irq rel comp r tr tsk c W SJ H Hin Hc). congruence.
Qed.
Print Assumptions C29_span_safe.

(** the total bound covers the spinning of a job plus one non-preemptive request
    of another local task that does not have a higher priority *)
Theorem C29_blocking_safe : forall info procs irq rel comp tr i k tsk rs low r c,
  wf_info info ->
  (forall t, In t info -> sporadic_jobs (ti_period t) (ti_response t) (rel (ti_id t)) (comp (ti_id t))) ->
  (forall r, fifo_execution info procs irq rel comp r (tr r)) ->
  nth_error info i = Some tsk -> NoDup rs ->
  In low info -> ti_id low <> i -> ti_cluster low = ti_cluster tsk -> ti_prio tsk <= ti_prio low ->
  In c (tr r) -> cr_task c = ti_id low ->
  exists b, nth_error (task_fair_mutex_bounds info procs irq) i = Some b /\
  (total_spin i k tr rs + (cr_end c - cr_issue c) <= Z.of_N (i_len (bb_block b)))%Z.
Proof.
  intros info procs irq rel comp tr i k tsk rs low r c W SJ H Hi ND Hl NE Ec Pr Hc El. destruct (omlp_result info procs irq i tsk Hi) as [b [B1 [B2 [B3 [B4 B5]]]]].
  exists b. split; [exact B1|]. rewrite B5, N2Z.inj_add. destruct (wf_nth info i tsk W Hi) as [<- Hin].
  apply Z.add_le_mono; [apply (total_spin_safe info procs irq rel comp tr tsk k rs W SJ H Hin ND)|].
  apply (arrival_safe info procs irq rel comp r (tr r) tsk low c W SJ (H r) Hin Hl NE Ec Pr Hc El).
Qed.
Print Assumptions C29_blocking_safe.

Theorem C29_monotone : forall info info' procs procs' irq i tsk,
  wf_info info -> wf_info info' -> info_le info info' -> procs <= procs' ->
  (forall t q, In t info -> In q (ti_requests t) -> 0 < q_num q) ->
  nth_error info i = Some tsk ->
  exists b b', nth_error (task_fair_mutex_bounds info procs irq) i = Some b /\ nth_error (task_fair_mutex_bounds info' procs' irq) i = Some b' /\
  i_len (bb_remote b) <= i_len (bb_remote b') /\ i_len (bb_span b) <= i_len (bb_span b') /\
  i_len (bb_arrival b) <= i_len (bb_arrival b') /\ i_len (bb_block b) <= i_len (bb_block b').
Proof.
  intros info info' procs procs' irq i tsk W W' L HP HN Hi. destruct (wf_nth info i tsk W Hi) as [Ei Hin]. destruct (L tsk Hin) as [tsk' [Hin' TL]].
  assert (Hi' : nth_error info' i = Some tsk') by (rewrite <- Ei, (proj1 TL); apply wf_id; assumption).
  destruct (omlp_result info procs irq i tsk Hi) as [b [B1 [B2 [B3 [B4 B5]]]]]. destruct (omlp_result info' procs' irq i tsk' Hi') as [b' [B1' [B2' [B3' [B4' B5']]]]].
  exists b, b'. split; [exact B1|]. split; [exact B1'|]. rewrite B2, B2', B3, B3', B4, B4', B5, B5'.
  pose proof (remote_mono info info' procs procs' irq W W' L HP tsk tsk' Hin TL) as R.
  pose proof (span_mono info info' procs procs' irq W W' L HP tsk tsk' (fun q => HN tsk q Hin) TL) as S.
  pose proof (arrival_mono info info' procs procs' irq W W' L HP tsk tsk' HN Hin TL) as A.
  repeat split; try assumption. apply N.add_le_mono; assumption.
Qed.
Print Assumptions C29_monotone.

Theorem C29_zero : forall info procs irq tsk q issued,
  (forall t x, In t info -> ti_id t <> ti_id tsk -> In x (ti_requests t) -> q_res x <> q) ->
  np_fifo_per_resource tsk (cluster_contention info) procs q issued irq = inter0.
Proof. exact (fun info procs irq tsk q issued => np_fifo_zero info tsk procs q issued irq). Qed.
Print Assumptions C29_zero.

(** a resource is treated as local exactly if it is used and all its users
    belong to one cluster *)
Theorem C29_local_resources : forall info r, In r (get_local_resources info) <->
  (exists t q, In t info /\ In q (ti_requests t) /\ q_res q = r) /\
  forall t q t' q', In t info -> In q (ti_requests t) -> q_res q = r -> In t' info -> In q' (ti_requests t') -> q_res q' = r -> ti_cluster t = ti_cluster t'.
Proof. exact local_resources_spec. Qed.
Print Assumptions C29_local_resources.

(** the local ceiling blocking is the longest request that can block *)
Theorem C29_ceiling_blocking : forall info tsk, ti_prio tsk < 4294967295 ->
  (forall low q, can_block info tsk low q -> q_len q <= i_len (pcp_blocking_of info tsk)) /\
  (i_len (pcp_blocking_of info tsk) = 0 \/ exists low q, can_block info tsk low q /\ i_len (pcp_blocking_of info tsk) = q_len q).
Proof. exact pcp_spec. Qed.
Print Assumptions C29_ceiling_blocking.

(** the MSRP charges the spinning for global resources and the larger of the two
    arrival blocking terms *)
Theorem C29_msrp : forall info irq i tsk, nth_error info i = Some tsk ->
  let locals := get_local_resources info in
  exists b g lt, nth_error (msrp_bounds_holistic info irq) i = Some b /\
  nth_error (task_fair_mutex_bounds (extract_resources info locals false) 1 irq) i = Some g /\
  nth_error (extract_resources info locals true) i = Some lt /\
  i_len (bb_remote b) = i_len (bb_remote g) /\
  i_len (bb_arrival b) = N.max (i_len (bb_arrival g)) (i_len (pcp_blocking_of (extract_resources info locals true) lt)) /\
  i_len (bb_block b) = i_len (bb_remote b) + i_len (bb_arrival b).
Proof.
  intros info irq i tsk Hi locals. destruct (msrp_result info irq i tsk Hi) as [b [gt [lt [B1 [G [L [B2 [B3 B4]]]]]]]].
  destruct (omlp_result _ 1 irq i gt G) as [g [G1 [G2 [_ [G4 _]]]]]. exists b, g, lt. split; [exact B1|]. split; [exact G1|]. split; [exact L|].
  rewrite B2, B3, B4, G2, G4. repeat split; reflexivity.
Qed.
Print Assumptions C29_msrp.

(** an execution in which job 0 of task 0 spins for three time units *)
Definition ex_trace (r : nat) : list creq := match r with O => [CReq 2 0 0 0 0 4; CReq 0 0 0 1 4 6] | _ => [] end.
Definition ex_rel (i k : nat) : Z := Z.of_nat k * 20.
Definition ex_comp (i k : nat) : Z := Z.of_nat k * 20 + 10.

Lemma ex_wf : wf_info ex_info.
Proof.
  split; [reflexivity|]. intros t [<-|[<-|[<-|[]]]]; (split; [reflexivity|]); cbn; repeat constructor; cbn; intuition discriminate.
Qed.

Example C29_case : wf_info ex_info /\
  (forall t, In t ex_info -> sporadic_jobs (ti_period t) (ti_response t) (ex_rel (ti_id t)) (ex_comp (ti_id t))) /\
  (forall r, fifo_execution ex_info 1 None ex_rel ex_comp r (ex_trace r)) /\
  total_spin 0 0 ex_trace [0; 1]%nat = 3%Z /\ map (fun b => i_len (bb_remote b)) (task_fair_mutex_bounds ex_info 1 None) = [4; 4; 6] /\
  map (fun b => i_len (bb_block b)) (task_fair_mutex_bounds ex_info 1 None) = [11; 4; 6].
Proof.
  split; [exact ex_wf|]. split; [intros t [<-|[<-|[<-|[]]]]; split; intros k; unfold ex_rel, ex_comp; cbn [ti_period ti_response ex_t0 ex_t1 ex_t2]; lia|].
  split; [|repeat split; vm_compute; reflexivity]. intros [|r]; cbn [ex_trace].
  - constructor.
    + intros c [<-|[<-|[]]]; cbn; lia.
    + repeat constructor; cbn; lia.
    + intros pre b post E t Ht. destruct pre as [|a [|a' pre]].
      * injection E as <- <-. cbn in Ht. lia.
      * injection E as <- <- <-. exists (CReq 2 0 0 0 0 4). split; [left; reflexivity|]. cbn in *. lia.
      * injection E as _ _ E. destruct pre; discriminate.
    + intros c [<-|[<-|[]]]; [exists ex_t2, (Req 0 2 4 false)|exists ex_t0, (Req 0 1 2 false)]; repeat split; try (left; reflexivity); vm_compute; discriminate.
    + intros i k t q H1 H2 H3. destruct i as [|[|[|i]]]; cbn in H1; [injection H1 as <-|injection H1 as <-|injection H1 as <-|destruct i; discriminate].
      * destruct H2 as [<-|[]]. destruct k; cbn; lia.
      * cbn. lia.
      * destruct H2 as [<-|[]]. destruct k; cbn; lia.
    + intros c [<-|[<-|[]]]; unfold ex_rel, ex_comp; cbn; lia.
    + intros c t [<-|[<-|[]]] H; cbn in H; injection H as <-; vm_compute; reflexivity.
    + constructor; [constructor; [|constructor]|constructor; constructor]. intros t u H1 H2 H3 H4. cbn in H1, H2. injection H1 as <-. injection H2 as <-. discriminate.
    + constructor; [constructor; [|constructor]|constructor; constructor]. cbn. discriminate.
  - constructor.
    + intros c [].
    + constructor.
    + intros pre b post E. destruct pre; discriminate.
    + intros c [].
    + intros; cbn; lia.
    + intros c [].
    + intros c t [].
    + constructor.
    + constructor.
Qed.

(** local and global resources *)
Example C29_case_msrp : get_local_resources ex_info = [1%nat] /\
  map (fun b => (i_len (bb_arrival b), i_len (bb_block b))) (msrp_bounds_holistic ex_info None) = [(7, 11); (0, 4); (0, 6)] /\
  info_le ex_info (map (fun t => TI (ti_id t) (ti_prio t) (ti_period t) (ti_deadline t) (ti_response t + 5) (ti_cluster t) (ti_cost t) (ti_requests t)) ex_info).
Proof.
  split; [vm_compute; reflexivity|]. split; [vm_compute; reflexivity|].
  intros t Ht. eexists. split; [apply in_map; exact Ht|]. repeat split; cbn; try lia. intros q Hq. exists q. split; [exact Hq|]. repeat split; lia.
Qed.

Example C29_case_ceiling : can_block [TI 0 0 10 10 10 0 1 [Req 0 1 1 false]; TI 1 1 20 20 20 0 1 [Req 0 1 5 false]] (TI 0 0 10 10 10 0 1 [Req 0 1 1 false]) (TI 1 1 20 20 20 0 1 [Req 0 1 5 false]) (Req 0 1 5 false).
Proof.
  repeat split; cbn; try lia; auto. exists (TI 0 0 10 10 10 0 1 [Req 0 1 1 false]), (Req 0 1 1 false). cbn. repeat split; auto; lia.
Qed.
