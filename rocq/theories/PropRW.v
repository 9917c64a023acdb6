(** Reader-writer spin locks: phase-fair (C47) and task-fair (C48). *)
From Coq Require Import NArith ZArith List Bool Sorted Lia Arith.
From Verif Require Import ModelLocking ModelResources ModelRW SpecLocking SpecQueue SpecRW ProofLocking ProofSpin ProofQueue ProofLockingMono ProofRW ProofPF ProofLaminar ProofTF ProofRWRes ProofRWModels.
Import ListNotations.
Open Scope N_scope.

(** * C47: phase-fair locks *)

(** the blocking term without arrival blocking covers the spinning of a job for
    all its requests, the arrival blocking covers one request of another local
    task that does not have a higher priority; bounds.py:243-249 charges the two
    parts separately *)
Theorem C47_blocking_safe : forall info procs irq rel comp tr i k tsk rs,
  wf_rw info ->
  (forall t, In t info -> sporadic_jobs (ti_period t) (ti_response t) (rel (ti_id t)) (comp (ti_id t))) ->
  (forall r, phase_fair_execution info procs irq rel comp r (tr r)) ->
  nth_error info i = Some tsk -> NoDup rs ->
  exists b, nth_error (phase_fair_rw_bounds info procs irq) i = Some b /\
  (total_spin i k (fun r => map fst (tr r)) rs <= Z.of_N (i_len (bb_block b) - i_len (bb_arrival b)))%Z /\
  (forall low r c d, In low info -> ti_id low <> i -> ti_cluster low = ti_cluster tsk -> ti_prio tsk <= ti_prio low ->
     In (c, d) (tr r) -> cr_task c = ti_id low ->
     (cr_end c - cr_issue c <= Z.of_N (i_len (bb_arrival b)))%Z /\
     (total_spin i k (fun r => map fst (tr r)) rs + (cr_end c - cr_issue c) <= Z.of_N (i_len (bb_block b)))%Z).
Proof.
  intros info procs irq rel comp tr i k tsk rs W SJ H Hi ND. destruct (pf_result info procs irq i tsk Hi) as [b [B1 [B2 [B3 B4]]]]. exists b. split; [exact B1|].
  destruct (wfr_nth info i tsk W Hi) as [<- Hin]. pose proof (pf_total_spin info procs irq rel comp W SJ tsk Hin tr k rs H ND) as S. rewrite B3, B4. split; [lia|].
  intros low r c d Hl NE Ec Pr Hc El. pose proof (pf_span info procs irq rel comp W SJ low Hl r (tr r) c d (H r) Hc El) as SP.
  pose proof (lower_span info (pfh info procs irq) tsk low Hl NE Ec Pr) as LS. lia.
Qed.
Print Assumptions C47_blocking_safe.

(** the request span covers a request from issue to completion *)
Theorem C47_span_safe : forall info procs irq rel comp tr i tsk r c d,
  wf_rw info ->
  (forall t, In t info -> sporadic_jobs (ti_period t) (ti_response t) (rel (ti_id t)) (comp (ti_id t))) ->
  phase_fair_execution info procs irq rel comp r tr ->
  nth_error info i = Some tsk -> In (c, d) tr -> cr_task c = i ->
  exists b, nth_error (phase_fair_rw_bounds info procs irq) i = Some b /\ (cr_end c - cr_issue c <= Z.of_N (i_len (bb_span b)))%Z.
Proof.
  intros info procs irq rel comp tr i tsk r c d W SJ H Hi Hc Ec. destruct (pf_result info procs irq i tsk Hi) as [b [B1 [B2 [B3 B4]]]]. exists b. split; [exact B1|]. rewrite B2.
  destruct (wfr_nth info i tsk W Hi) as [E Hin]. apply (pf_span info procs irq rel comp W SJ tsk Hin r tr c d H Hc). congruence.
Qed.
Print Assumptions C47_span_safe.

(** without conflicting requests only arrival blocking is charged *)
Theorem C47_zero : forall info procs irq i tsk,
  nth_error info i = Some tsk ->
  (forall t x y, In t info -> ti_id t <> ti_id tsk -> In x (ti_requests t) -> In y (ti_requests tsk) -> q_res x = q_res y -> q_read x = true /\ q_read y = true) ->
  exists b, nth_error (phase_fair_rw_bounds info procs irq) i = Some b /\ i_len (bb_block b) = i_len (bb_arrival b).
Proof.
  intros info procs irq i tsk Hi H. destruct (pf_result info procs irq i tsk Hi) as [b [B1 [B2 [B3 B4]]]]. exists b. split; [exact B1|]. rewrite B3, B4, (pf_block_zero info procs irq tsk H). reflexivity.
Qed.
Print Assumptions C47_zero.

(** * C48: task-fair locks *)

Theorem C48_blocking_safe : forall info mtx procs irq rel comp tr i k tsk rs,
  wf_rw info -> wf_info mtx -> Forall2 mutex_cover info mtx ->
  (forall t, In t info -> sporadic_jobs (ti_period t) (ti_response t) (rel (ti_id t)) (comp (ti_id t))) ->
  (forall r, task_fair_execution info procs irq rel comp r (tr r)) ->
  nth_error info i = Some tsk -> NoDup rs ->
  exists b, nth_error (task_fair_rw_bounds info mtx procs irq) i = Some b /\
  (total_spin i k (fun r => map fst (tr r)) rs <= Z.of_N (i_len (bb_block b) - i_len (bb_arrival b)))%Z /\
  (forall low r c d, In low info -> ti_id low <> i -> ti_cluster low = ti_cluster tsk -> ti_prio tsk <= ti_prio low ->
     In (c, d) (tr r) -> cr_task c = ti_id low ->
     (cr_end c - cr_issue c <= Z.of_N (i_len (bb_arrival b)))%Z /\
     (total_spin i k (fun r => map fst (tr r)) rs + (cr_end c - cr_issue c) <= Z.of_N (i_len (bb_block b)))%Z).
Proof.
  intros info mtx procs irq rel comp tr i k tsk rs W Wm HM SJ H Hi ND. destruct (tf_result info mtx procs irq i tsk Hi) as [b [B1 [B2 [B3 B4]]]]. exists b. split; [exact B1|].
  destruct (wfr_nth info i tsk W Hi) as [<- Hin]. pose proof (tf_total_spin info mtx procs irq rel comp W SJ HM Wm tsk Hin tr k rs H ND) as S. rewrite B3, B4. split; [lia|].
  intros low r c d Hl NE Ec Pr Hc El. pose proof (tf_span info mtx procs irq rel comp W SJ HM Wm low Hl r (tr r) c d (H r) Hc El) as SP.
  pose proof (lower_span info (tfh info mtx procs irq) tsk low Hl NE Ec Pr) as LS. lia.
Qed.
Print Assumptions C48_blocking_safe.

Theorem C48_span_safe : forall info mtx procs irq rel comp tr i tsk r c d,
  wf_rw info -> wf_info mtx -> Forall2 mutex_cover info mtx ->
  (forall t, In t info -> sporadic_jobs (ti_period t) (ti_response t) (rel (ti_id t)) (comp (ti_id t))) ->
  task_fair_execution info procs irq rel comp r tr ->
  nth_error info i = Some tsk -> In (c, d) tr -> cr_task c = i ->
  exists b, nth_error (task_fair_rw_bounds info mtx procs irq) i = Some b /\ (cr_end c - cr_issue c <= Z.of_N (i_len (bb_span b)))%Z.
Proof.
  intros info mtx procs irq rel comp tr i tsk r c d W Wm HM SJ H Hi Hc Ec. destruct (tf_result info mtx procs irq i tsk Hi) as [b [B1 [B2 [B3 B4]]]]. exists b. split; [exact B1|]. rewrite B2.
  destruct (wfr_nth info i tsk W Hi) as [E Hin]. apply (tf_span info mtx procs irq rel comp W SJ HM Wm tsk Hin r tr c d H Hc). congruence.
Qed.
Print Assumptions C48_span_safe.

(** the models built from a Python task set meet the hypotheses above *)
Theorem C48_models : forall ts, (forall t, In t ts -> valid_py t) ->
  wf_rw (get_cpp_model_rw ts) /\ wf_info (get_cpp_model ts) /\ Forall2 mutex_cover (get_cpp_model_rw ts) (get_cpp_model ts).
Proof. intros ts V. split; [apply rw_model_wf; exact V|]. split; [apply mutex_model_wf; exact V|apply models_cover; exact V]. Qed.
Print Assumptions C48_models.

(** sharing among readers never costs anything *)
Theorem C48_not_worse_than_mutex : forall ts procs irq i t, (forall t, In t ts -> valid_py t) -> nth_error ts i = Some t ->
  exists b m, nth_error (task_fair_rw_bounds (get_cpp_model_rw ts) (get_cpp_model ts) procs irq) i = Some b /\
  nth_error (task_fair_mutex_bounds (get_cpp_model ts) procs irq) i = Some m /\
  i_len (bb_block b) <= i_len (bb_block m) /\ i_len (bb_span b) <= i_len (bb_span m) /\ i_len (bb_arrival b) <= i_len (bb_arrival m) /\
  i_len (bb_block b) - i_len (bb_arrival b) <= i_len (bb_block m) - i_len (bb_arrival m).
Proof. intros ts procs irq i t V H. exact (not_worse ts procs irq V i t H). Qed.
Print Assumptions C48_not_worse_than_mutex.

(** the counting with limits per task, per cluster and overall covers every
    selection within the limits, and some selection needs all of it *)
Theorem C48_counting_safe : forall tsk cont remote local per_task mt sel,
  (forall r, In r cont -> 0 < ti_period (rb_task r)) -> StronglySorted (fun r s => q_len (rb_req s) <= q_len (rb_req r)) cont ->
  (forall r r', In r cont -> In r' cont -> ti_id (rb_task r) = ti_id (rb_task r') -> ti_cluster (rb_task r) = ti_cluster (rb_task r')) ->
  limited_selection cont (ti_id tsk) (ti_response tsk) per_task (fun c => if Nat.eqb c (ti_cluster tsk) then local else remote) mt sel ->
  total_length sel <= i_len (bound_blocking_all tsk cont remote local per_task mt) /\
  N.of_nat (length sel) <= i_count (bound_blocking_all tsk cont remote local per_task mt).
Proof. intros tsk cont remote local per_task mt sel H1 H2 H3 H4. apply bba_safe; assumption. Qed.
Print Assumptions C48_counting_safe.

Theorem C48_counting_tight : forall tsk cont remote local per_task mt,
  (forall r, In r cont -> 0 < ti_period (rb_task r)) ->
  exists sel, limited_selection cont (ti_id tsk) (ti_response tsk) per_task (fun c => if Nat.eqb c (ti_cluster tsk) then local else remote) mt sel /\
  total_length sel = i_len (bound_blocking_all tsk cont remote local per_task mt) /\
  N.of_nat (length sel) = i_count (bound_blocking_all tsk cont remote local per_task mt).
Proof. intros tsk cont remote local per_task mt H1. apply bba_tight; assumption. Qed.
Print Assumptions C48_counting_tight.

(** ** Examples *)
(** three processors, one per cluster; a writer on the first two clusters is a
    reader on the third; the fourth task shares the processor of the first *)
Definition ex_py : list pytask :=
  [PyT 20 10 20 0 1 3 [Reqt 0 1 0 2 0 0]; PyT 20 10 20 1 1 4 [Reqt 0 0 1 0 3 0]; PyT 20 10 20 2 1 5 [Reqt 0 1 0 4 0 0; Reqt 1 0 0 0 0 0]; PyT 20 10 20 0 2 5 [Reqt 0 1 2 1 1 0]].
Definition ex_rwinfo := get_cpp_model_rw ex_py.
Definition ex_mtx := get_cpp_model ex_py.
Definition ex_prel (i k : nat) : Z := Z.of_nat k * 20.
Definition ex_pcomp (i k : nat) : Z := Z.of_nat k * 20 + 10.

(** the writer of task 2 holds the lock, the writer of task 0 waits, and the
    reader of task 1 arrives last but is served before the writer *)
Definition ex_pf (r : nat) : list rwreq :=
  match r with O => [(CReq 2 0 0 0 0 4, false); (CReq 1 0 0 2 4 7, true); (CReq 0 0 0 1 7 9, false)] | _ => [] end.
(** the same with the two waiting requests issued in the order of service *)
Definition ex_tf (r : nat) : list rwreq :=
  match r with O => [(CReq 2 0 0 0 0 4, false); (CReq 1 0 0 1 4 7, true); (CReq 0 0 0 2 7 9, false)] | _ => [] end.

Lemma ex_py_valid t : In t ex_py -> valid_py t.
Proof.
  intros [<-|[<-|[<-|[<-|[]]]]]; (split; [reflexivity|]); (split; [cbn; repeat constructor; cbn; intuition discriminate|]); cbn; intros r H; repeat (destruct H as [<-|H]; [unfold valid_req; cbn; lia|]); destruct H.
Qed.

Lemma ex_jobs t : In t ex_rwinfo -> sporadic_jobs (ti_period t) (ti_response t) (ex_prel (ti_id t)) (ex_pcomp (ti_id t)).
Proof. intros [<-|[<-|[<-|[<-|[]]]]]; split; intros k; unfold ex_prel, ex_pcomp; cbn [ti_period ti_response py_period py_response]; lia. Qed.

Lemma ex_trace_empty r : rw_trace ex_rwinfo 1 None ex_prel ex_pcomp r [].
Proof. constructor; try (intros; cbn in *; tauto); try constructor. intros; cbn; lia. Qed.

Lemma ex_rw_trace a b : (1 <= a <= 4)%Z -> (1 <= b <= 4)%Z -> rw_trace ex_rwinfo 1 None ex_prel ex_pcomp 0 [(CReq 2 0 0 0 0 4, false); (CReq 1 0 0 a 4 7, true); (CReq 0 0 0 b 7 9, false)].
Proof.
  intros Ha Hb. constructor.
  - intros c d [E|[E|[E|[]]]]; injection E as <- <-; cbn; lia.
  - intros c d [E|[E|[E|[]]]]; injection E as <- <-; cbn [cr_task cr_end cr_start].
    + exists (nth 2 ex_rwinfo (TI 0 0 0 0 0 0 0 [])), (Req 0 1 4 false). repeat split; [left; reflexivity|vm_compute; discriminate].
    + exists (nth 1 ex_rwinfo (TI 0 0 0 0 0 0 0 [])), (Req 0 1 3 true). repeat split; [left; reflexivity|vm_compute; discriminate].
    + exists (nth 0 ex_rwinfo (TI 0 0 0 0 0 0 0 [])), (Req 0 1 2 false). repeat split; [left; reflexivity|vm_compute; discriminate].
  - intros i k t q H1 H2 H3. destruct i as [|[|[|[|i]]]]; cbn in H1; [injection H1 as <-|injection H1 as <-|injection H1 as <-|injection H1 as <-|destruct i; discriminate].
    + destruct H2 as [<-|[]]. destruct k; cbn; lia.
    + destruct H2 as [<-|[]]. destruct k; cbn; lia.
    + destruct H2 as [<-|[]]. destruct k; cbn; lia.
    + cbn. lia.
  - intros c d [E|[E|[E|[]]]]; injection E as <- <-; unfold ex_prel, ex_pcomp; cbn; lia.
  - intros c d t [E|[E|[E|[]]]] H; injection E as <- <-; cbn in H; injection H as <-; vm_compute; reflexivity.
  - repeat (apply FOP_cons || apply FOP_nil || apply Forall_cons || apply Forall_nil); intros t u H1 H2 H3 H4; cbn in H1, H2; injection H1 as <-; injection H2 as <-; discriminate.
  - repeat (apply FOP_cons || apply FOP_nil || apply Forall_cons || apply Forall_nil); cbn; discriminate.
Qed.

Example C47_case : wf_rw ex_rwinfo /\
  (forall t, In t ex_rwinfo -> sporadic_jobs (ti_period t) (ti_response t) (ex_prel (ti_id t)) (ex_pcomp (ti_id t))) /\
  (forall r, phase_fair_execution ex_rwinfo 1 None ex_prel ex_pcomp r (ex_pf r)) /\
  total_spin 0 0 (fun r => map fst (ex_pf r)) [0; 1]%nat = 6%Z /\
  map (fun b => i_len (bb_block b)) (phase_fair_rw_bounds ex_rwinfo 1 None) = [15; 7; 6; 7] /\
  map (fun b => i_len (bb_arrival b)) (phase_fair_rw_bounds ex_rwinfo 1 None) = [8; 0; 0; 0] /\
  map (fun b => i_len (bb_span b)) (phase_fair_rw_bounds ex_rwinfo 1 None) = [9; 10; 10; 8].
Proof.
  split; [apply rw_model_wf; exact ex_py_valid|]. split; [exact ex_jobs|]. split; [|repeat split; vm_compute; reflexivity]. intros [|r].
  - cbn [ex_pf]. constructor.
    + apply ex_rw_trace; lia.
    + intros r w [E|[E|[E|[]]]] [F|[F|[F|[]]]]; try discriminate E; try discriminate F; injection E as <-; injection F as <-; cbn; lia.
    + repeat (apply FOP_cons || apply FOP_nil || apply Forall_cons || apply Forall_nil); cbn; intros; try discriminate; lia.
    + intros b t [E|[E|[E|[]]]] Ht; try discriminate E; injection E as <-; unfold waits in Ht; cbn in Ht; [lia|]. destruct (Z.lt_ge_cases t 4) as [L|L].
      * exists (CReq 2 0 0 0 0 4), false. split; [left; reflexivity|]. unfold holds; cbn. lia.
      * exists (CReq 1 0 0 2 4 7), true. split; [right; left; reflexivity|]. unfold holds; cbn. lia.
    + intros b t [E|[E|[E|[]]]] Ht; try discriminate E; injection E as <-; unfold waits in Ht; cbn in Ht. left. exists (CReq 2 0 0 0 0 4). split; [left; reflexivity|]. unfold holds; cbn. lia.
    + intros b w [E|[E|[E|[]]]] [F|[F|[F|[]]]]; try discriminate E; try discriminate F; injection E as <-; injection F as <-; cbn; lia.
    + intros b w [E|[E|[E|[]]]] [F|[F|[F|[]]]]; try discriminate E; try discriminate F; injection E as <-; injection F as <-; cbn; intros Hw; [lia|]. exists (CReq 2 0 0 0 0 4). split; [left; reflexivity|reflexivity].
  - cbn [ex_pf]. constructor; try (intros; cbn in *; tauto); [apply ex_trace_empty|constructor].
Qed.

(** two readers do not conflict *)
Example C47_case_zero : let info := [TI 0 1 20 20 10 0 3 [Req 0 1 2 true]; TI 1 1 20 20 10 1 3 [Req 0 1 5 true; Req 1 1 3 false]] in
  map (fun b => i_len (bb_block b)) (phase_fair_rw_bounds info 1 None) = [0; 0] /\ map (fun b => i_len (bb_span b)) (phase_fair_rw_bounds info 1 None) = [2; 5].
Proof. split; vm_compute; reflexivity. Qed.

Example C48_case : wf_rw ex_rwinfo /\ wf_info ex_mtx /\ Forall2 mutex_cover ex_rwinfo ex_mtx /\
  (forall t, In t ex_rwinfo -> sporadic_jobs (ti_period t) (ti_response t) (ex_prel (ti_id t)) (ex_pcomp (ti_id t))) /\
  (forall r, task_fair_execution ex_rwinfo 1 None ex_prel ex_pcomp r (ex_tf r)) /\
  total_spin 0 0 (fun r => map fst (ex_tf r)) [0; 1]%nat = 5%Z /\
  map (fun b => i_len (bb_block b)) (task_fair_rw_bounds ex_rwinfo ex_mtx 1 None) = [15; 6; 5; 7] /\
  map (fun b => i_len (bb_block b)) (task_fair_mutex_bounds ex_mtx 1 None) = [15; 6; 5; 7].
Proof.
  split; [apply rw_model_wf; exact ex_py_valid|]. split; [apply mutex_model_wf; exact ex_py_valid|]. split; [apply models_cover; exact ex_py_valid|]. split; [exact ex_jobs|].
  split; [|repeat split; vm_compute; reflexivity]. intros [|r].
  - cbn [ex_tf]. constructor.
    + apply ex_rw_trace; lia.
    + repeat (apply FOP_cons || apply FOP_nil || apply Forall_cons || apply Forall_nil); unfold conflict; cbn; (split; [lia|]); intros; lia.
    + intros pre b post E t Ht. destruct pre as [|x [|y [|z pre]]].
      * injection E as <- <-. unfold waits in Ht; cbn in Ht. lia.
      * injection E as <- <- <-. unfold waits in Ht; cbn in Ht. exists (CReq 2 0 0 0 0 4, false). split; [left; reflexivity|]. split; [reflexivity|]. cbn. lia.
      * injection E as <- <- <- <-. unfold waits in Ht; cbn in Ht. exists (CReq 1 0 0 1 4 7, true). split; [right; left; reflexivity|]. split; [reflexivity|]. cbn. lia.
      * injection E as _ _ _ E. destruct pre; discriminate.
  - cbn [ex_tf]. constructor; [apply ex_trace_empty|constructor|]. intros pre b post E. destruct pre; discriminate.
Qed.

(** readers only: nothing is charged, while the mutex bound is not zero *)
Example C48_case_readers : let ts := [PyT 20 10 20 0 1 3 [Reqt 0 0 1 0 2 0]; PyT 20 10 20 1 1 4 [Reqt 0 0 1 0 3 0]; PyT 20 10 20 2 1 5 [Reqt 0 0 1 0 4 0]] in
  (forall t, In t ts -> valid_py t) /\
  map (fun b => i_len (bb_block b)) (task_fair_rw_bounds (get_cpp_model_rw ts) (get_cpp_model ts) 1 None) = [0; 0; 0] /\
  map (fun b => i_len (bb_block b)) (task_fair_mutex_bounds (get_cpp_model ts) 1 None) = [7; 6; 5].
Proof.
  split; [|split; vm_compute; reflexivity].
  intros t [<-|[<-|[<-|[]]]]; (split; [reflexivity|]); (split; [cbn; repeat constructor; cbn; intuition discriminate|]); cbn; intros r [<-|[]]; unfold valid_req; cbn; lia.
Qed.

(** the limits per cluster and overall both matter *)
Example C48_case_counting :
  let t c i := TI i 1 20 20 10 c 5 [] in
  let cont := [RB (t 1 1)%nat (Req 0 2 5 true); RB (t 1 2)%nat (Req 0 2 4 true); RB (t 0 3)%nat (Req 0 2 3 true); RB (t 2 4)%nat (Req 0 2 1 true)] in
  StronglySorted (fun r s => q_len (rb_req s) <= q_len (rb_req r)) cont /\
  bound_blocking_all (t 0 0)%nat cont 3 1 2 5 = Inter 5 (2 * 5 + 1 * 4 + 1 * 3 + 1 * 1).
Proof. split; [repeat constructor; cbn; discriminate|vm_compute; reflexivity]. Qed.
