(** C29, continued: the bounds for suspension-based locks, k-exclusion locks and
    the MSRP are safe for every execution. *)
From Coq Require Import NArith ZArith List Bool Lia Arith.
From Verif Require Import ModelLocking SpecLocking SpecQueue ProofLocking ProofSpin ProofLockingMono ProofQueue ProofKx ProofMsrp PropLocking.
Import ListNotations.
Open Scope N_scope.

(** Under the global FMLP a job is pi-blocked, over all its requests, for no longer
    than the bound. *)
Theorem C29_global_fmlp_safe : forall info rel comp exec pib tr i k tsk,
  wf_info info ->
  (forall t, In t info -> sporadic_jobs (ti_period t) (ti_response t) (rel (ti_id t)) (comp (ti_id t))) ->
  (forall res, fmlp_execution info rel comp res (exec res) (pib res) (tr res)) ->
  nth_error info i = Some tsk ->
  exists b, nth_error (global_fmlp_bounds info) i = Some b /\
  (total_blocked i k pib tr (map q_res (ti_requests tsk)) <= Z.of_N (i_len b))%Z.
Proof.
  intros info rel comp exec pib tr i k tsk W SJ H Hi. destruct (wf_nth info i tsk W Hi) as [<- Hin].
  pose proof (global_fmlp_safe info rel comp exec pib tr tsk k W SJ H Hin) as S.
  destruct (nth_error (global_fmlp_bounds info) (ti_id tsk)) as [b|] eqn:E.
  - exists b. split; [reflexivity|]. rewrite (nth_error_nth _ _ inter0 E) in S. exact S.
  - exfalso. apply nth_error_None in E. unfold global_fmlp_bounds in E. rewrite map_length in E. apply nth_error_None in E. congruence.
Qed.
Print Assumptions C29_global_fmlp_safe.

(** The same for the global OMLP on [m] processors. *)
Theorem C29_global_omlp_safe : forall info m rel comp prio enq exec pib tr i k tsk,
  wf_info info ->
  (forall t, In t info -> sporadic_jobs (ti_period t) (ti_response t) (rel (ti_id t)) (comp (ti_id t))) ->
  (forall res, omlp_execution info m rel comp prio res (enq res) (exec res) (pib res) (tr res)) ->
  nth_error info i = Some tsk ->
  exists b, nth_error (global_omlp_bounds info m) i = Some b /\
  (total_blocked i k pib tr (map q_res (ti_requests tsk)) <= Z.of_N (i_len b))%Z.
Proof.
  intros info m rel comp prio enq exec pib tr i k tsk W SJ H Hi. destruct (wf_nth info i tsk W Hi) as [<- Hin].
  pose proof (global_omlp_safe info m rel comp prio enq exec pib tr tsk k W SJ H Hin) as S.
  destruct (nth_error (global_omlp_bounds info m) (ti_id tsk)) as [b|] eqn:E.
  - exists b. split; [reflexivity|]. rewrite (nth_error_nth _ _ inter0 E) in S. exact S.
  - exfalso. apply nth_error_None in E. unfold global_omlp_bounds in E. rewrite map_length in E. apply nth_error_None in E. congruence.
Qed.
Print Assumptions C29_global_omlp_safe.

(** The k-exclusion bounds: the total bound covers the waiting of a job plus one
    request of a local task without higher priority; a request takes no longer
    than the span.  The cluster that takes interrupts must be one of the clusters
    of the tasks, because the number of processors is reduced by one in any case. *)
Theorem C29_kx_safe : forall info replicas procs irq rel comp rep tr i k tsk,
  wf_info info ->
  (forall t, In t info -> sporadic_jobs (ti_period t) (ti_response t) (rel (ti_id t)) (comp (ti_id t))) ->
  (forall r, kx_execution info procs irq (replicas r) rel comp r (rep r) (tr r)) -> (forall r, 0 < replicas r) ->
  irq_ok info irq -> nth_error info i = Some tsk ->
  exists b, nth_error (clustered_kx_omlp_bounds info replicas procs irq) i = Some b /\
  (total_spin i k tr (map q_res (ti_requests tsk)) <= Z.of_N (i_len (bb_block b)))%Z /\
  (forall r c, In c (tr r) -> cr_task c = i -> (cr_end c - cr_issue c <= Z.of_N (i_len (bb_span b)))%Z) /\
  (forall low r c, In low info -> ti_id low <> i -> ti_cluster low = ti_cluster tsk -> ti_prio tsk <= ti_prio low -> In c (tr r) -> cr_task c = ti_id low ->
     (total_spin i k tr (map q_res (ti_requests tsk)) + (cr_end c - cr_issue c) <= Z.of_N (i_len (bb_block b)))%Z).
Proof.
  intros info replicas procs irq rel comp rep tr i k tsk W SJ H HR HI Hi. destruct (kx_result info replicas procs irq i tsk Hi) as [b [B1 [B2 [B3 B4]]]].
  exists b. split; [exact B1|]. destruct (wf_nth info i tsk W Hi) as [<- Hin]. rewrite B2, B4.
  pose proof (kx_total_safe info replicas procs irq rel comp rep tr tsk k W SJ H HR HI Hin) as T.
  split; [lia|]. split.
  - intros r c Hc Et. apply (kx_span_safe info replicas procs irq rel comp (rep r) r (tr r) tsk c W SJ (H r) (HR r) HI Hin Hc Et).
  - intros low r c Hl NE Ec Pr Hc El. pose proof (kx_arrival_safe info replicas procs irq rel comp (rep r) r (tr r) tsk low c W SJ (H r) (HR r) HI Hl NE Ec Pr Hc El). lia.
Qed.
Print Assumptions C29_kx_safe.

(** The partitioned OMLP has the bounds of the clustered OMLP with one processor per
    cluster, hence they are safe as well. *)
Theorem C29_part_omlp_safe : forall info rel comp tr i k tsk,
  wf_info info ->
  (forall t, In t info -> sporadic_jobs (ti_period t) (ti_response t) (rel (ti_id t)) (comp (ti_id t))) ->
  (forall r, fifo_execution info 1 None rel comp r (tr r)) ->
  nth_error info i = Some tsk ->
  exists b, nth_error (part_omlp_bounds info) i = Some b /\
  (total_spin i k tr (map q_res (ti_requests tsk)) <= Z.of_N (i_len (bb_block b)))%Z /\
  (forall r c, In c (tr r) -> cr_task c = i -> (cr_end c - cr_issue c <= Z.of_N (i_len (bb_span b)))%Z) /\
  (forall low r c, In low info -> ti_id low <> i -> ti_cluster low = ti_cluster tsk -> ti_prio tsk <= ti_prio low -> In c (tr r) -> cr_task c = ti_id low ->
     (total_spin i k tr (map q_res (ti_requests tsk)) + (cr_end c - cr_issue c) <= Z.of_N (i_len (bb_block b)))%Z).
Proof.
  intros info rel comp tr i k tsk W SJ H Hi. destruct (wf_nth info i tsk W Hi) as [Ei Hin].
  assert (ND : NoDup (map q_res (ti_requests tsk))) by (apply (proj2 W tsk Hin)).
  destruct (omlp_result info 1 None i tsk Hi) as [b' [B1 [B2 [B3 [B4 B5]]]]].
  assert (E : exists b, nth_error (part_omlp_bounds info) i = Some b /\ bb_block b = bb_block b' /\ bb_span b = bb_span b').
  { pose proof (map_nth_error (fun b => (bb_block b, bb_span b, bb_arrival b)) _ _ B1) as M. rewrite <- part_omlp_eq in M. rewrite nth_error_map in M.
    destruct (nth_error (part_omlp_bounds info) i) as [b|]; [|discriminate]. cbn in M. exists b. split; [reflexivity|]. split; congruence. }
  destruct E as [b [E1 [E2 E3]]]. exists b. split; [exact E1|]. rewrite E2, E3. split; [|split].
  - destruct (C29_spin_safe info 1 None rel comp tr i k tsk _ W SJ H Hi ND) as [x [X1 X2]]. unfold task_fair_mutex_bounds in X1; rewrite B1 in X1; injection X1 as <-. rewrite B5. rewrite B2 in X2. lia.
  - intros r c Hc Et. destruct (C29_span_safe info 1 None rel comp (tr r) i tsk r c W SJ (H r) Hi Hc Et) as [x [X1 X2]]. unfold task_fair_mutex_bounds in X1; rewrite B1 in X1; injection X1 as <-. exact X2.
  - intros low r c Hl NE Ec Pr Hc El. destruct (C29_blocking_safe info 1 None rel comp tr i k tsk _ low r c W SJ H Hi ND Hl NE Ec Pr Hc El) as [x [X1 X2]]. unfold task_fair_mutex_bounds in X1; rewrite B1 in X1; injection X1 as <-. exact X2.
Qed.
Print Assumptions C29_part_omlp_safe.

(** The MSRP splits the requests into those for local and those for global resources
    and changes nothing else. *)
Theorem C29_extract_resources : forall info locals want i t, nth_error info i = Some t ->
  exists u, nth_error (extract_resources info locals want) i = Some u /\
  ti_id u = ti_id t /\ ti_prio u = ti_prio t /\ ti_period u = ti_period t /\ ti_response u = ti_response t /\ ti_cluster u = ti_cluster t /\
  forall q', In q' (ti_requests u) <-> exists q, In q (ti_requests t) /\ (want = true <-> In (q_res q) locals) /\ q' = Req (q_res q) (q_num q) (q_len q) false.
Proof. exact extract_spec. Qed.
Print Assumptions C29_extract_resources.

(** The MSRP bound covers the spinning for global resources plus either one
    non-preemptive request of a local task for a global resource or one request for
    a local resource that can block under the priority ceiling protocol. *)
Theorem C29_msrp_safe : forall info irq rel comp tr i k tsk rs,
  wf_info info ->
  (forall t, In t info -> sporadic_jobs (ti_period t) (ti_response t) (rel (ti_id t)) (comp (ti_id t))) ->
  (forall r, ~ In r (get_local_resources info) -> fifo_execution info 1 irq rel comp r (tr r)) ->
  nth_error info i = Some tsk -> NoDup rs -> (forall r, In r rs -> ~ In r (get_local_resources info)) ->
  exists b, nth_error (msrp_bounds_holistic info irq) i = Some b /\
  (forall low r c, In low info -> ti_id low <> i -> ti_cluster low = ti_cluster tsk -> ti_prio tsk <= ti_prio low ->
     ~ In r (get_local_resources info) -> In c (tr r) -> cr_task c = ti_id low ->
     (total_spin i k tr rs + (cr_end c - cr_issue c) <= Z.of_N (i_len (bb_block b)))%Z) /\
  (forall low q, ti_prio tsk < 4294967295 -> can_block info tsk low q -> In (q_res q) (get_local_resources info) ->
     (total_spin i k tr rs + Z.of_N (q_len q) <= Z.of_N (i_len (bb_block b)))%Z).
Proof.
  intros info irq rel comp tr i k tsk rs W SJ H Hi ND HR. destruct (msrp_safe info irq rel comp tr W SJ H i tsk k rs Hi ND HR) as [b [B1 [B2 [B3 [B4 B5]]]]].
  exists b. split; [exact B1|]. rewrite B5. split.
  - intros low r c Hl NE Ec Pr NL Hc El. pose proof (B3 low r c Hl NE Ec Pr NL Hc El). lia.
  - intros low q PM CB HL. pose proof (B4 low q PM CB HL). lia.
Qed.
Print Assumptions C29_msrp_safe.

(** * Concrete executions *)

Lemma ex_jobs t : In t ex_info -> sporadic_jobs (ti_period t) (ti_response t) (ex_rel (ti_id t)) (ex_comp (ti_id t)).
Proof. intros [<-|[<-|[<-|[]]]]; split; intros k; unfold ex_rel, ex_comp; cbn [ti_period ti_response ex_t0 ex_t1 ex_t2]; lia. Qed.

Lemma empty_requests info rel comp res exec : lock_requests info rel comp res exec [].
Proof. constructor; [intros c []|intros c []|intros; cbn; lia|intros c []|constructor]. Qed.

Lemma ex_requests : lock_requests ex_info ex_rel ex_comp 0 (fun _ _ => true) (ex_trace 0).
Proof.
  constructor.
  - intros c [<-|[<-|[]]]; cbn; lia.
  - intros c [<-|[<-|[]]]; [exists ex_t2, (Req 0 2 4 false)|exists ex_t0, (Req 0 1 2 false)]; repeat split; try (left; reflexivity); vm_compute; discriminate.
  - intros i k t q Hi Hq Er. destruct i as [|[|[|i]]]; cbn in Hi.
    + injection Hi as <-. destruct Hq as [<-|[]]. destruct k; vm_compute; discriminate.
    + injection Hi as <-. destruct Hq as [<-|[<-|[]]]; cbn in Er; [|discriminate]. vm_compute. discriminate.
    + injection Hi as <-. destruct Hq as [<-|[]]. destruct k; vm_compute; discriminate.
    + destruct i; discriminate.
  - intros c [<-|[<-|[]]]; unfold ex_rel, ex_comp; cbn; lia.
  - cbn [ex_trace]. repeat constructor. discriminate.
Qed.

(** a job is pi-blocked for three of at most seven time units under the FMLP *)
Example C29_case_fmlp :
  (forall res, fmlp_execution ex_info ex_rel ex_comp res (fun _ _ => true) (fun _ _ => true) (ex_trace res)) /\
  total_blocked 0 0 (fun _ _ _ => true) ex_trace [0]%nat = 3%Z /\ map i_len (global_fmlp_bounds ex_info) = [7; 6; 10].
Proof.
  split; [|split; vm_compute; reflexivity]. intros [|r].
  - constructor; [exact ex_requests| |].
    + cbn [ex_trace]. repeat constructor; cbn; lia.
    + intros b t [<-|[<-|[]]] Ht _; cbn in Ht; [lia|]. exists (CReq 2 0 0 0 0 4). split; [left; reflexivity|]. split; [cbn; lia|reflexivity].
  - cbn [ex_trace]. constructor; [apply empty_requests|constructor|intros b t []].
Qed.

(** with a FIFO queue of one entry, the same job first waits in the priority queue *)
Definition ex_enq (c : creq) : Z := match cr_task c with O => 4 | _ => 0 end.
Definition ex_prio (i k : nat) : Z := Z.of_nat i.

Example C29_case_omlp :
  (forall res, omlp_execution ex_info 1 ex_rel ex_comp ex_prio res ex_enq (fun _ _ => true) (fun _ _ => true) (ex_trace res)) /\
  total_blocked 0 0 (fun _ _ _ => true) ex_trace [0]%nat = 3%Z /\ map i_len (global_omlp_bounds ex_info 1) = [4; 4; 6].
Proof.
  split; [|split; vm_compute; reflexivity]. intros [|r].
  - constructor.
    + exact ex_requests.
    + intros c [<-|[<-|[]]]; cbn; lia.
    + cbn [ex_trace]. repeat constructor; cbn; lia.
    + intros t. cbn [ex_trace filter]. unfold queued, ex_enq; cbn [cr_task cr_end].
      destruct (Z.leb_spec 0 t), (Z.ltb_spec t 4), (Z.leb_spec 4 t), (Z.ltb_spec t 6); cbn; lia.
    + intros b t [<-|[<-|[]]] Ht; unfold ex_enq in Ht; cbn in Ht; [lia|]. cbn [ex_trace filter]. unfold queued, ex_enq; cbn [cr_task cr_end].
      destruct (Z.leb_spec 0 t), (Z.ltb_spec t 4); cbn; lia.
    + cbn [ex_trace]. apply FOP_cons; [apply Forall_cons; [unfold ex_enq; cbn; lia|apply Forall_nil]|]. apply FOP_cons; [apply Forall_nil|apply FOP_nil].
    + intros b t jobs [<-|[<-|[]]] Ht; cbn in Ht; [lia|]. intros _ _ HJ. destruct jobs as [|[i k] r]; [cbn; lia|]. exfalso. destruct (HJ i k (or_introl eq_refl)) as [_ P]. unfold ex_prio in P. cbn in P. lia.
    + intros b t [<-|[<-|[]]] Ht _; cbn in Ht; [lia|]. exists (CReq 2 0 0 0 0 4). split; [left; reflexivity|]. split; [cbn; lia|reflexivity].
  - cbn [ex_trace]. constructor; [apply empty_requests|intros c []|constructor|intros t; cbn; lia|intros b t []|constructor|intros b t jobs []|intros b t []].
Qed.

(** two replicas and three requests *)
Definition ex_kx (r : nat) : list creq := match r with O => [CReq 2 0 0 0 0 4; CReq 1 0 1 0 0 3; CReq 0 0 0 1 3 5] | _ => [] end.
Definition ex_rep (r : nat) (c : creq) : N := match cr_task c with 2%nat => 0 | _ => 1 end.

Example C29_case_kx :
  (forall r, kx_execution ex_info 2 None (match r with O => 2 | _ => 9 end) ex_rel ex_comp r (ex_rep r) (ex_kx r)) /\ irq_ok ex_info None /\
  total_spin 0 0 ex_kx [0]%nat = 2%Z /\
  map (fun b => i_len (bb_block b)) (clustered_kx_omlp_bounds ex_info (fun r => match r with O => 2 | _ => 9 end) 2 None) = [11; 4; 6] /\
  map (fun b => i_len (bb_span b)) (clustered_kx_omlp_bounds ex_info (fun r => match r with O => 2 | _ => 9 end) 2 None) = [6; 7; 7].
Proof.
  split; [|split; [exact I|]; repeat split; vm_compute; reflexivity]. intros [|r].
  - constructor.
    + constructor.
      * intros c [<-|[<-|[<-|[]]]]; cbn; lia.
      * intros c [<-|[<-|[<-|[]]]]; [exists ex_t2, (Req 0 2 4 false)|exists ex_t1, (Req 0 1 3 false)|exists ex_t0, (Req 0 1 2 false)]; repeat split; try (left; reflexivity); vm_compute; discriminate.
      * intros i k t q Hi Hq Er. destruct i as [|[|[|i]]]; cbn in Hi.
        -- injection Hi as <-. destruct Hq as [<-|[]]. destruct k; vm_compute; discriminate.
        -- injection Hi as <-. destruct Hq as [<-|[<-|[]]]; cbn in Er; [|discriminate]. destruct k; vm_compute; discriminate.
        -- injection Hi as <-. destruct Hq as [<-|[]]. destruct k; vm_compute; discriminate.
        -- destruct i; discriminate.
      * intros c [<-|[<-|[<-|[]]]]; unfold ex_rel, ex_comp; cbn; lia.
      * cbn [ex_kx]. repeat constructor; discriminate.
    + cbn [ex_kx]. repeat constructor; cbn; lia.
    + cbn [ex_kx]. repeat constructor; cbn; try discriminate; lia.
    + intros b t r [<-|[<-|[<-|[]]]] Ht Hr; cbn in Ht; [lia|lia|]. assert (C : r = 0 \/ r = 1) by lia. destruct C as [-> | ->].
      * exists (CReq 2 0 0 0 0 4). split; [left; reflexivity|]. split; [reflexivity|cbn; lia].
      * exists (CReq 1 0 1 0 0 3). split; [right; left; reflexivity|]. split; [reflexivity|cbn; lia].
    + intros c t [<-|[<-|[<-|[]]]] E; cbn in E; injection E as <-; vm_compute; reflexivity.
    + cbn [ex_kx]. repeat (apply FOP_cons || apply FOP_nil || apply Forall_nil || apply Forall_cons); intros t u E1 E2; cbn in E1, E2; injection E1 as <-; injection E2 as <-; cbn; discriminate.
  - cbn [ex_kx]. constructor; [apply empty_requests|constructor|constructor|intros b t x []|intros c t []|constructor].
Qed.

(** the MSRP: resource 1 is used by one task only and hence local *)
Example C29_case_msrp_safe : get_local_resources ex_info = [1%nat] /\ wf_info ex_info /\
  (forall r, ~ In r (get_local_resources ex_info) -> fifo_execution ex_info 1 None ex_rel ex_comp r (ex_trace r)) /\
  nth_error ex_info 0 = Some ex_t0 /\ total_spin 0 0 ex_trace [0]%nat = 3%Z /\
  In ex_t1 ex_info /\ ti_cluster ex_t1 = ti_cluster ex_t0 /\ ti_prio ex_t0 <= ti_prio ex_t1.
Proof.
  split; [vm_compute; reflexivity|]. split; [exact ex_wf|]. split; [intros r _; apply C29_case|].
  split; [reflexivity|]. split; [vm_compute; reflexivity|]. split; [right; left; reflexivity|]. split; [reflexivity|vm_compute; discriminate].
Qed.
