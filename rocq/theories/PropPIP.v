(** C70-C72: the classic analyses of the global priority inheritance protocol and
    of the parallel priority ceiling protocol. *)
From Coq Require Import NArith ZArith List Bool Lia Arith Sorted Permutation.
From Verif Require Import Base ModelTasks ModelLocking ModelGFP ModelPIP SpecLocking SpecQueue SpecDPCP SpecFMLPPlus SpecPIP ProofLocking ProofSpin ProofQueue ProofBlame ProofLockingMono ProofGlobal ProofMSRP
  ProofGFPTop ProofPIP ProofPIPExec ProofPIPBound ProofPIPRta.
Import ListNotations.
Import Base.
Open Scope Z_scope.

(** ** C70 *)

Lemma pip_result info m i tsk : nth_error info i = Some tsk -> nth_error (global_pip_bounds info m) i = Some (global_pip_task info m tsk).
Proof. intros H. unfold global_pip_bounds. apply map_nth_error. exact H. Qed.

(** The time for which a job waits while a request of a task of higher priority
    executes is at most the local blocking that the analysis reports. *)
Theorem C70_direct : forall info m rel comp sched tr i k tsk total local e p,
  wf_info info -> pip_params info -> (0 < m)%nat -> pip_execution info m rel comp sched tr -> on_time info rel comp e ->
  nth_error info i = Some tsk -> nth_error (global_pip_bounds info (N.of_nat m)) i = Some (total, local) ->
  rel i k <= e <= comp i k -> e - rel i k <= Z.of_N (ti_response tsk) ->
  (forall t, p t = true -> exists r b a, In b (tr r) /\ cr_task b = i /\ cr_job b = k /\ cr_issue b <= t < cr_start b /\
    In a (tr r) /\ (tprio info (cr_task a) < ti_prio tsk)%N /\ executes_cs sched a t = true) ->
  instants p (rel i k) e <= Z.of_N local.
Proof.
  intros info m rel comp sched tr i k tsk total local e p WF PP HM EX OT HT HR H0 HL HP. rewrite (pip_result _ _ _ _ HT) in HR. unfold global_pip_task in HR. injection HR as _ <-.
  assert (HI : In tsk info) by (eapply nth_error_In; exact HT). assert (EI : ti_id tsk = i) by (apply (info_id info WF); exact HT). subst i.
  rewrite instants_cnt. eapply Z.le_trans; [|apply (direct_higher info m rel comp sched tr e WF PP EX OT tsk k HI HM H0 HL)].
  apply cnt_le. intros t _ Ht. apply (blocked_iff info m rel comp sched tr e WF EX tsk k HI H0). destruct (HP t Ht) as [r [b [a [X1 [X2 [X3 [X4 [X5 [X6 X7]]]]]]]]]. exists r, b, a.
  repeat (split; [assumption|]). split; [apply N.ltb_lt; exact X6|exact X7].
Qed.
Print Assumptions C70_direct.

(** What a job does up to time [e]: it executes for some time, it is delayed for at
    most the reported blocking, and otherwise by its share of the work of tasks of
    higher priority that is not part of the blocking. *)
Theorem C70_response : forall info m rel comp sched tr i k tsk total local e,
  wf_info info -> pip_params info -> (0 < m)%nat -> pip_execution info m rel comp sched tr -> on_time info rel comp e ->
  nth_error info i = Some tsk -> nth_error (global_pip_bounds info (N.of_nat m)) i = Some (total, local) ->
  rel i k <= e <= comp i k -> e - rel i k <= Z.of_N (ti_response tsk) ->
  e - rel i k <= instants (executes sched i k) (rel i k) e + Z.of_N total +
    (if (ti_prio tsk <? N.of_nat m)%N then 0 else Z.max 0 (higher_work info sched (ti_prio tsk) (rel i k) e - Z.of_N local) / Z.of_nat m).
Proof.
  intros info m rel comp sched tr i k tsk total local e WF PP HM EX OT HT HR H0 HL. rewrite (pip_result _ _ _ _ HT) in HR. unfold global_pip_task in HR. injection HR as <- <-.
  assert (HI : In tsk info) by (eapply nth_error_In; exact HT). assert (EI : ti_id tsk = i) by (apply (info_id info WF); exact HT). subst i. rewrite instants_cnt.
  destruct (N.ltb_spec (ti_prio tsk) (N.of_nat m)) as [L|L]; destruct (N.leb_spec (N.of_nat m) (ti_prio tsk)) as [L'|L']; try lia.
  - pose proof (top_bound info m rel comp sched tr e WF PP EX OT tsk k HI HM H0 HL L). lia.
  - pose proof (low_bound info m rel comp sched tr e WF PP EX OT tsk k HI HM H0 HL). lia.
Qed.
Print Assumptions C70_response.

(** A lock holder of low priority delays a job that does not use the lock: on one
    processor the job of task 2 holds the lock when those of tasks 0 and 1 arrive. *)
Definition ex70 : list taskinfo :=
  [TI 0 0 20 20 20 0 2 [Req 0 1 1 false]; TI 1 1 30 30 30 0 2 []; TI 2 2 40 40 40 0 3 [Req 0 1 2 false]].
Definition rel70 (j k : nat) : Z := (match j with O => 1 | S O => 1 | _ => 0 end) + 100 * Z.of_nat k.
Definition comp70 (j k : nat) : Z := match k with O => match j with O => 4 | S O => 6 | _ => 7 end | _ => rel70 j k end.
Definition sched70 (t : Z) : list (nat * nat) :=
  if t <? 0 then [] else if t <? 2 then [(2, 0)]%nat else if t <? 4 then [(0, 0)]%nat else if t <? 6 then [(1, 0)]%nat else if t <? 7 then [(2, 0)]%nat else [].
Definition tr70 (r : nat) : list creq := match r with O => [CReq 2 0 0 0 0 2; CReq 0 0 0 1 2 3] | _ => [] end.

Lemma slots70 t : sched70 t = [] /\ (t < 0 \/ 7 <= t) \/ (t = 0 \/ t = 1 \/ t = 2 \/ t = 3 \/ t = 4 \/ t = 5 \/ t = 6).
Proof.
  unfold sched70. destruct (Z.ltb_spec t 0); [left; split; [reflexivity|lia]|]. destruct (Z.ltb_spec t 7); [right; lia|]. left. split; [|lia].
  destruct (Z.ltb_spec t 2); [lia|]. destruct (Z.ltb_spec t 4); [lia|]. destruct (Z.ltb_spec t 6); [lia|]. reflexivity.
Qed.

Ltac cases_in := repeat match goal with
  | H : In _ (_ :: _) |- _ => destruct H as [<-|H]
  | H : In _ [] |- _ => destruct H
  | H : @eq creq _ _ \/ _ |- _ => destruct H as [<-|H]
  | H : @eq taskinfo _ _ \/ _ |- _ => destruct H as [<-|H]
  | H : @eq reqspec _ _ \/ _ |- _ => destruct H as [<-|H]
  | H : False |- _ => destruct H
  end.

Ltac fields := cbn [cr_task cr_job cr_cpu cr_issue cr_start cr_end] in *.
Ltac num := repeat split; vm_compute; congruence.

Lemma exec70 : pip_execution ex70 1 rel70 comp70 sched70 tr70.
Proof.
  assert (PEND : forall j l t, (j < 3)%nat -> pending rel70 comp70 j l t -> l = O /\ 0 <= t < 7).
  { intros j l t Hj [P1 P2]. destruct l as [|l]; [|unfold comp70 in P2; cbv beta iota in P2; lia]. split; [reflexivity|]. unfold rel70, comp70 in *. destruct j as [|[|j]]; cbv beta iota in *; lia. }
  constructor.
  - intros r. constructor.
    + intros c H. destruct r as [|r]; cbn in H; cases_in; num.
    + intros c H. destruct r as [|r]; cbn in H; cases_in.
      * exists (TI 2 2 40 40 40 0 3 [Req 0 1 2 false]), (Req 0 1 2 false). repeat split; try reflexivity; try (left; reflexivity); vm_compute; congruence.
      * exists (TI 0 0 20 20 20 0 2 [Req 0 1 1 false]), (Req 0 1 1 false). repeat split; try reflexivity; try (left; reflexivity); vm_compute; congruence.
    + intros i k t q H1 H2 H3. destruct r as [|r]; [|cbn; apply N.le_0_l]. destruct i as [|[|[|i]]]; cbn in H1; try (injection H1 as <-); cbn in H2; cases_in.
      * destruct k; vm_compute; congruence.
      * destruct k; vm_compute; congruence.
      * destruct i; discriminate.
    + intros c H. destruct r as [|r]; cbn in H; cases_in; num.
    + destruct r as [|r]; cbn; repeat constructor. cbn. discriminate.
  - intros t H k. unfold ex70 in H. cases_in; cbn [ti_id ti_period]; unfold comp70, rel70; destruct k; cbv beta iota; lia.
  - intros t. destruct (slots70 t) as [[-> _]|H]; [split; [constructor|cbn; lia]|]. repeat (destruct H as [->|H]); try subst t; cbn; (split; [repeat constructor; intros []|lia]).
  - intros t j l H. destruct (slots70 t) as [[E _]|SS]; [rewrite E in H; destruct H|].
    repeat (destruct SS as [->|SS]); try subst t; cbn in H; destruct H as [H|[]]; injection H as <- <-; (split; [cbn; lia|]); (split; [unfold pending, rel70, comp70; cbn; lia|]);
      intros [r [b [HB [E1 [E2 TB]]]]]; destruct r as [|r]; cbn in HB; cases_in; fields; lia.
  - intros r. destruct r as [|r]; cbn; repeat constructor; cbn; intuition discriminate.
  - intros r s a b HA HB NE E. destruct r as [|r], s as [|s]; cbn in HA, HB; cases_in; cbn in E; try discriminate; exfalso; apply NE; reflexivity.
  - intros r a b HA HB NE. destruct r as [|r]; cbn in HA, HB; cases_in; fields; try lia; exfalso; apply NE; reflexivity.
  - intros r b t HB TB. destruct r as [|r]; cbn in HB; cases_in; fields; [lia|]. exists (CReq 2 0 0 0 0 2). split; [left; reflexivity|fields; lia].
  - intros r a b HA HB TB. destruct r as [|r]; cbn in HA, HB; cases_in; fields; lia.
  - intros j l t HJ P NS NI. cbn in HJ. destruct (PEND j l t HJ P) as [-> HT]. destruct (slots70 t) as [[_ SS]|SS]; [lia|].
    assert (RAISED : t = 1 -> forall p, reaches ex70 tr70 2 0 t p).
    { intros -> p. right. exists 0%nat, (CReq 2 0 0 0 0 2), (CReq 0 0 0 1 2 3). cbn. repeat split; auto; lia. }
    unfold pending, rel70, comp70 in P.
    repeat (destruct SS as [->|SS]); try subst t; cbn in NI |- *; (split; [reflexivity|]); intros j' l' H; (destruct H as [H|[]]; injection H as <- <-); intros p R.
    all: destruct j as [|[|[|j]]]; try lia; try (exfalso; apply NI; left; reflexivity); cbn in P; try lia.
    all: try (apply RAISED; reflexivity).
    all: left; destruct R as [R|[r [a [b [HA [HB [E1 [E2 [TA [TB PB]]]]]]]]]]; [cbn in R |- *; lia|destruct r as [|r]; cbn in HA, HB; cases_in; fields; lia].
Qed.

Lemma params70 : wf_info ex70 /\ pip_params ex70.
Proof.
  split; split.
  - reflexivity.
  - intros t H. unfold ex70 in H. cases_in; cbn; (split; [lia|repeat constructor; intros []]).
  - cbn. repeat constructor; cbn; intuition discriminate.
  - intros t H. unfold ex70 in H. cases_in; cbn [ti_deadline ti_period ti_prio ti_requests]; (split; [lia|]); (split; [reflexivity|]); (split; [cbn; lia|]); intros u HU; unfold ex70 in HU; cases_in; reflexivity.
Qed.

Lemma on_time70 : on_time ex70 rel70 comp70 6.
Proof. intros t H k. left. unfold ex70 in H. cases_in; cbn [ti_id ti_deadline]; unfold comp70, rel70; destruct k; cbv beta iota; lia. Qed.

(** task 1: five time units pass, of which its job executes for two *)
Example C70_case :
  wf_info ex70 /\ pip_params ex70 /\ pip_execution ex70 1 rel70 comp70 sched70 tr70 /\ on_time ex70 rel70 comp70 6 /\
  global_pip_bounds ex70 1 = [(2, 0); (4, 0); (3, 3)]%N /\
  instants (executes sched70 1 0) 1 6 = 2 /\ higher_work ex70 sched70 1 1 6 = 2.
Proof.
  split; [apply params70|]. split; [apply params70|]. split; [apply exec70|]. split; [apply on_time70|]. vm_compute. auto.
Qed.

(** Tasks of equal priority: the analysis counts them neither as higher nor as
    lower, so that it reports no blocking for tasks that block each other. *)
Definition ex70e : list taskinfo := [TI 0 0 20 20 20 0 5 [Req 0 1 5 false]; TI 1 0 20 20 20 0 1 [Req 0 1 1 false]].
Definition rel70e (j k : nat) : Z := 100 * Z.of_nat k.
Definition comp70e (j k : nat) : Z := match k with O => match j with O => 5 | _ => 6 end | _ => rel70e j k end.
Definition sched70e (t : Z) : list (nat * nat) := if t <? 0 then [] else if t <? 5 then [(0, 0)]%nat else if t <? 6 then [(1, 0)]%nat else [].
Definition tr70e (r : nat) : list creq := match r with O => [CReq 0 0 0 0 0 5; CReq 1 0 0 0 5 6] | _ => [] end.

Theorem C70_equal_refuted : exists info m rel comp sched tr i k tsk total local e,
  wf_info info /\ (0 < m)%nat /\ pip_execution info m rel comp sched tr /\ on_time info rel comp e /\
  nth_error info i = Some tsk /\ nth_error (global_pip_bounds info (N.of_nat m)) i = Some (total, local) /\
  rel i k <= e <= comp i k /\ e - rel i k <= Z.of_N (ti_response tsk) /\ (ti_prio tsk < N.of_nat m)%N /\
  instants (executes sched i k) (rel i k) e + Z.of_N total < e - rel i k.
Proof.
  exists ex70e, 2%nat, rel70e, comp70e, sched70e, tr70e, 1%nat, 0%nat, (TI 1 0 20 20 20 0 1 [Req 0 1 1 false]), 0%N, 0%N, 6.
  assert (SL : forall t, sched70e t = [] /\ (t < 0 \/ 6 <= t) \/ sched70e t = [(0, 0)]%nat /\ 0 <= t < 5 \/ sched70e t = [(1, 0)]%nat /\ t = 5).
  { intros t. unfold sched70e. destruct (Z.ltb_spec t 0); [left; split; [reflexivity|lia]|]. destruct (Z.ltb_spec t 5); [right; left; split; [reflexivity|lia]|]. destruct (Z.ltb_spec t 6); [right; right; split; [reflexivity|lia]|left; split; [reflexivity|lia]]. }
  split; [|split; [lia|split; [|split; [|repeat split; try reflexivity; vm_compute; congruence]]]].
  - split; [reflexivity|]. intros t H. unfold ex70e in H. cases_in; cbn; (split; [lia|repeat constructor; intros []]).
  - constructor.
    + intros r. constructor.
      * intros c H. destruct r as [|r]; cbn in H; cases_in; num.
      * intros c H. destruct r as [|r]; cbn in H; cases_in.
        -- exists (TI 0 0 20 20 20 0 5 [Req 0 1 5 false]), (Req 0 1 5 false). repeat split; try reflexivity; try (left; reflexivity); vm_compute; congruence.
        -- exists (TI 1 0 20 20 20 0 1 [Req 0 1 1 false]), (Req 0 1 1 false). repeat split; try reflexivity; try (left; reflexivity); vm_compute; congruence.
      * intros i k t q H1 H2 H3. destruct r as [|r]; [|cbn; apply N.le_0_l]. destruct i as [|[|i]]; cbn in H1; try (injection H1 as <-); cbn in H2; cases_in.
        -- destruct k; vm_compute; congruence.
        -- destruct k; vm_compute; congruence.
        -- destruct i; discriminate.
      * intros c H. destruct r as [|r]; cbn in H; cases_in; num.
      * destruct r as [|r]; cbn; repeat constructor. cbn. discriminate.
    + intros t H k. unfold ex70e in H. cases_in; cbn [ti_id ti_period]; unfold comp70e, rel70e; destruct k; cbv beta iota; lia.
    + intros t. destruct (SL t) as [[-> _]|[[-> _]|[-> _]]]; cbn; (split; [repeat constructor; intros []|lia]).
    + intros t j l H. destruct (SL t) as [[E T]|[[E T]|[E T]]]; rewrite E in H; [destruct H| |]; destruct H as [H|[]]; injection H as <- <-; (split; [cbn; lia|]); (split; [unfold pending, rel70e, comp70e; cbn; lia|]);
        intros [r [b [HB [E1 [E2 TB]]]]]; destruct r as [|r]; cbn in HB; cases_in; fields; lia.
    + intros r. destruct r as [|r]; cbn; repeat constructor; cbn; intuition discriminate.
    + intros r s a b HA HB NE E. destruct r as [|r], s as [|s]; cbn in HA, HB; cases_in; cbn in E; try discriminate; exfalso; apply NE; reflexivity.
    + intros r a b HA HB NE. destruct r as [|r]; cbn in HA, HB; cases_in; fields; try lia; exfalso; apply NE; reflexivity.
    + intros r b t HB TB. destruct r as [|r]; cbn in HB; cases_in; fields; [lia|]. exists (CReq 0 0 0 0 0 5). split; [left; reflexivity|fields; lia].
    + intros r a b HA HB TB. destruct r as [|r]; cbn in HA, HB; cases_in; fields; lia.
    + intros j l t HJ [P1 P2] NS NI. exfalso. cbn in HJ. destruct l as [|l]; [|unfold comp70e in P2; cbv beta iota in P2; lia]. unfold rel70e, comp70e in P1, P2. destruct j as [|[|j]]; cbv beta iota in P1, P2; [| |lia].
      * apply NI. destruct (SL t) as [[E T]|[[E T]|[E T]]]; rewrite ?E; try lia. left. reflexivity.
      * destruct (Z.lt_ge_cases t 5).
        -- apply NS. exists 0%nat, (CReq 1 0 0 0 5 6). cbn. repeat split; auto; lia.
        -- apply NI. destruct (SL t) as [[E T]|[[E T]|[E T]]]; rewrite ?E; try lia. left. reflexivity.
  - intros t H k. left. unfold ex70e in H. cases_in; cbn [ti_id ti_deadline]; unfold comp70e, rel70e; destruct k; cbv beta iota; lia.
Qed.
Print Assumptions C70_equal_refuted.

(** ** C71 *)

(** If the response-time analysis accepts the task set with these bounds and its
    response times do not exceed those the bounds were computed for, then every
    job completes within the response time of its task and meets its deadline. *)
Theorem C71_safe : forall fuel dont_use_slack info m res rel comp sched tr,
  wf_info info -> pip_params info -> (forall t, In t info -> ti_prio t = N.of_nat (ti_id t)) -> (0 < m)%nat ->
  bert_is_schedulable fuel dont_use_slack (Z.of_nat m) (pip_taskset info m) = GDone true res ->
  (forall i t tk r, nth_error info i = Some t -> nth_error res i = Some (tk, r) -> r <= Z.of_N (ti_response t)) ->
  pip_execution info m rel comp sched tr -> works_off info rel comp sched -> (forall t, In t info -> 0 <= rel (ti_id t) 0%nat) ->
  forall i k t, nth_error info i = Some t -> exists tk r, nth_error res i = Some (tk, r) /\ comp i k <= rel i k + r /\ r <= Z.of_N (ti_deadline t).
Proof.
  intros fuel nosl info m res rel comp sched tr WF PP PR HM RT RB EX WO ST i k t E.
  destruct (res_facts info m WF PP HM fuel nosl res RT RB i t E) as [r [EP [IL [_ [[_ OK] _]]]]]. cbn [fst snd g_task t_cost t_deadline] in OK.
  pose proof (responds info m rel comp sched tr WF PP EX WO HM fuel nosl res PR RT RB ST (S (Z.to_nat (rel i k + snd (nth i res da0)))) i k t E ltac:(lia)) as R.
  cbv beta in R. rewrite EP in R. cbn [snd] in R. exists (fst (nth i res da0)), r. split; [|split; [exact R|lia]].
  rewrite (nth_error_nth' res da0 IL), EP. reflexivity.
Qed.
Print Assumptions C71_safe.

Lemma works70 : works_off ex70 rel70 comp70 sched70.
Proof.
  intros u H k e HE. unfold ex70 in H. destruct k as [|k]; [|unfold comp70 in HE; cbv beta iota in HE; lia]. cases_in; cbn [ti_id ti_cost] in *; unfold rel70, comp70 in HE; cbn in HE.
  - assert (C : e = 1 \/ e = 2 \/ e = 3) by lia. repeat (destruct C as [->|C]); try subst e; vm_compute; reflexivity.
  - assert (C : e = 1 \/ e = 2 \/ e = 3 \/ e = 4 \/ e = 5) by lia. repeat (destruct C as [->|C]); try subst e; vm_compute; reflexivity.
  - assert (C : e = 0 \/ e = 1 \/ e = 2 \/ e = 3 \/ e = 4 \/ e = 5 \/ e = 6) by lia. repeat (destruct C as [->|C]); try subst e; vm_compute; reflexivity.
Qed.

(** The execution above. The response times are 4, 10 and 11. *)
Example C71_case : exists res, bert_is_schedulable 50 true 1 (pip_taskset ex70 1) = GDone true res /\ map snd res = [4; 10; 11] /\
  forall i k t, nth_error ex70 i = Some t -> exists tk r, nth_error res i = Some (tk, r) /\ comp70 i k <= rel70 i k + r /\ r <= Z.of_N (ti_deadline t).
Proof.
  eexists. split; [vm_compute; reflexivity|]. split; [reflexivity|].
  eapply (C71_safe 50 true ex70 1); [apply params70|apply params70|..|apply exec70|apply works70|].
  - intros t H. unfold ex70 in H. cases_in; reflexivity.
  - lia.
  - vm_compute. reflexivity.
  - intros i t tk r E1 E2. destruct i as [|[|[|i]]]; cbn in E1, E2; [..|destruct i; discriminate]; injection E1 as <-; injection E2 as <- <-; cbn; lia.
  - intros t H. unfold ex70 in H. cases_in; num.
Qed.

(** ** C72 *)

Lemma ppcp_result info m rp i tsk : nth_error info i = Some tsk -> nth_error (ppcp_bounds info m rp) i = Some (ppcp_task info m rp tsk).
Proof. intros H. unfold ppcp_bounds. apply map_nth_error. exact H. Qed.

Lemma Ilp_ppcp_zero info tsk m : Ilp_i_ppcp info tsk m = 0%N.
Proof.
  unfold Ilp_i_ppcp. set (shift := fun tl => shift_value _ tl _). set (csl := fun tl => u32 _).
  assert (SC : forall l mn n, exists n', fold_left (scan_step shift) l ([], mn, false, n) = ([], mn, false, n')).
  { induction l as [|x l IH]; intros mn n; [exists n; reflexivity|]. cbn [fold_left scan_step existsb andb]. apply IH. }
  assert (ST : shift_step info tsk shift csl ([], 0%N) = ([], 0%N)).
  { unfold shift_step. destruct (SC (lower_tasks info tsk) UNLIMITED O) as [n' ->]. reflexivity. }
  assert (IT : N.iter m (shift_step info tsk shift csl) ([], 0%N) = ([], 0%N)).
  { induction m as [|m IH] using N.peano_ind; [reflexivity|]. rewrite N.iter_succ, IH. exact ST. }
  rewrite IT. cbv beta iota. assert (FL : forall (f : taskinfo -> N) l, fold_left (fun sum tl => if existsb (Nat.eqb (ti_id tl)) [] then (sum + f tl)%N else sum) l 0%N = 0%N).
  { intros f. induction l as [|x l IH]; [reflexivity|]. exact IH. }
  rewrite FL. unfold divide_with_ceil. destruct m; reflexivity.
Qed.

(** For 'reasonable' priority assignments the analysis adds nothing for indirect
    blocking: a task that issues no requests is assumed never to be blocked,
    whatever the other tasks do. *)
Theorem C72_no_requests : forall info m i tsk, nth_error info i = Some tsk -> ti_requests tsk = [] ->
  nth_error (ppcp_bounds info m true) i = Some (0, 0)%N.
Proof.
  intros info m i tsk E R. rewrite (ppcp_result _ _ _ _ _ E). unfold ppcp_task, compute_Ilp_i. rewrite Ilp_ppcp_zero. unfold DB_i, sus_i. rewrite R. cbn [fold_left].
  assert (D : Ihp_i_dsr info tsk = 0%N).
  { unfold Ihp_i_dsr, common_sr_time. rewrite R. cbn [fold_left]. generalize 0%N at 2 3. induction (higher_tasks info tsk) as [|x l IH]; intros n; [reflexivity|]. cbn [fold_left]. rewrite IH. unfold W_l_tx. lia. }
  rewrite D. destruct (m <=? ti_prio tsk)%N; reflexivity.
Qed.
Print Assumptions C72_no_requests.

(** This is unsafe.  In the execution the job waits for a lock holder of lower
    priority for a time unit that the analysis does not count.  At most one request
    holds a lock at a time, and no request waits for a resource that is free, so
    that rules about when to grant free resources make no difference. *)
Theorem C72_unsafe : exists info m rel comp sched tr i k tsk total local e,
  wf_info info /\ pip_params info /\ (0 < m)%nat /\ is_reasonable_priority_assignment m info = true /\
  pip_execution info m rel comp sched tr /\ on_time info rel comp e /\
  (forall r s a b t, In a (tr r) -> In b (tr s) -> cr_start a <= t < cr_end a -> cr_start b <= t < cr_end b -> (r, a) = (s, b)) /\
  nth_error info i = Some tsk /\ nth_error (apply_classic_ppcp_bounds info m) i = Some (total, local) /\
  rel i k <= e <= comp i k /\ e - rel i k <= Z.of_N (ti_response tsk) /\
  instants (executes sched i k) (rel i k) e + Z.of_N total + Z.max 0 (higher_work info sched (ti_prio tsk) (rel i k) e - Z.of_N local) / Z.of_nat m < e - rel i k.
Proof.
  exists ex70, 1%nat, rel70, comp70, sched70, tr70, 1%nat, 0%nat, (TI 1 1 30 30 30 0 2 []), 0%N, 0%N, 6.
  split; [apply params70|]. split; [apply params70|]. split; [lia|]. split; [reflexivity|]. split; [apply exec70|]. split; [apply on_time70|]. split.
  - intros r s a b t HA HB TA TB. destruct r as [|r], s as [|s]; cbn in HA, HB; cases_in; fields; try lia; reflexivity.
  - repeat split; try reflexivity; vm_compute; congruence.
Qed.
Print Assumptions C72_unsafe.

(** Otherwise the bounds are at least those for priority inheritance, with the same
    part that is due to higher priorities. *)
Theorem C72_general : forall info m i tsk total local total' local', nth_error info i = Some tsk ->
  nth_error (ppcp_bounds info m false) i = Some (total, local) -> nth_error (global_pip_bounds info m) i = Some (total', local') ->
  (local = local' /\ total' <= total)%N /\ ((ti_prio tsk < m)%N -> total = total').
Proof.
  intros info m i tsk total local total' local' E H H'. rewrite (ppcp_result _ _ _ _ _ E) in H. rewrite (pip_result _ _ _ _ E) in H'. unfold ppcp_task in H. unfold global_pip_task in H'.
  injection H as <- <-. injection H' as <- <-. unfold compute_Ilp_i. split; [split; [reflexivity|]; destruct (m <=? ti_prio tsk)%N; lia|].
  intros L. destruct (N.leb_spec m (ti_prio tsk)); [lia|reflexivity].
Qed.
Print Assumptions C72_general.

Example C72_case : ppcp_bounds ex70 1 false = [(2, 0); (4, 0); (3, 3)]%N /\ ppcp_bounds ex70 1 true = [(2, 0); (0, 0); (3, 3)]%N.
Proof. vm_compute. split; reflexivity. Qed.

(** *** The delay due to jobs that are expelled *)

Definition nsum (l : list N) : N := fold_right N.add 0%N l.

Lemma nsum_app a b : nsum (a ++ b) = (nsum a + nsum b)%N.
Proof. unfold nsum. induction a as [|x a IH]; cbn [app fold_right]; [lia|]. rewrite IH. lia. Qed.

Lemma nsum_fold l : forall n, fold_left N.add l n = (n + nsum l)%N.
Proof. induction l as [|x l IH]; intros n; cbn [fold_left nsum fold_right]; [lia|]. rewrite IH. unfold nsum. lia. Qed.

Lemma top_firstn : forall s sel rest m, StronglySorted (fun a b => b <= a)%N s -> Permutation (sel ++ rest) s -> (length sel <= m)%nat -> (nsum sel <= nsum (firstn m s))%N.
Proof.
  induction s as [|x s IH]; intros sel rest m SS P L.
  - apply Permutation_sym, Permutation_nil in P. apply app_eq_nil in P. destruct P as [-> _]. cbn. lia.
  - destruct sel as [|y sel]; [cbn [nsum fold_right]; lia|]. destruct m as [|m]; [cbn in L; lia|]. cbn [length] in L. inversion SS as [|? ? SS' FA]; subst.
    assert (HX : In x ((y :: sel) ++ rest)) by (eapply Permutation_in; [apply Permutation_sym; exact P|left; reflexivity]).
    apply in_app_or in HX. destruct HX as [HX|HX].
    + apply in_split in HX. destruct HX as [l1 [l2 E]]. rewrite E in P |- *. rewrite <- app_assoc in P. cbn [app] in P.
      apply Permutation_sym in P. pose proof (Permutation_cons_app_inv _ _ P) as P'. apply Permutation_sym in P'. rewrite app_assoc in P'.
      specialize (IH (l1 ++ l2) rest m SS' P'). assert (LL : length (y :: sel) = length (l1 ++ x :: l2)) by (rewrite E; reflexivity). rewrite app_length in LL. cbn [length] in LL. rewrite app_length in IH.
      specialize (IH ltac:(lia)). rewrite nsum_app in IH |- *. cbn [firstn nsum fold_right] in *. fold (nsum l2) in *. fold (nsum (firstn m s)). unfold nsum in *. lia.
    + apply in_split in HX. destruct HX as [l1 [l2 ->]].
      assert (P' : Permutation (sel ++ y :: l1 ++ l2) s).
      { apply Permutation_cons_inv with x. etransitivity; [|exact P]. transitivity (x :: y :: sel ++ l1 ++ l2); [apply perm_skip, Permutation_sym, Permutation_middle|].
        etransitivity; [apply perm_swap|]. cbn [app]. apply perm_skip. rewrite !app_assoc. apply Permutation_middle. }
      specialize (IH sel (y :: l1 ++ l2) m SS' P' ltac:(lia)). cbn [firstn nsum fold_right] in *. fold (nsum sel) in *. fold (nsum (firstn m s)) in *.
      assert (IN : In y (x :: s)) by (eapply Permutation_in; [exact P|left; reflexivity]). destruct IN as [->|IN]; [lia|]. rewrite Forall_forall in FA. specialize (FA y IN). cbv beta in FA. lia.
Qed.

Definition longest_other (r : nat) (u : taskinfo) : N :=
  fold_left (fun mx req => if negb (Nat.eqb (q_res req) r) then N.max mx (q_len req) else mx) (ti_requests u) 0%N.

Lemma longest_other_ge r u q : In q (ti_requests u) -> q_res q <> r -> (q_len q <= longest_other r u)%N.
Proof.
  unfold longest_other. intros H NE. assert (G : forall l n, (n <= fold_left (fun mx req => if negb (Nat.eqb (q_res req) r) then N.max mx (q_len req) else mx) l n)%N).
  { induction l as [|x l IH]; intros n; cbn [fold_left]; [lia|]. destruct (negb _); [|apply IH]. specialize (IH (N.max n (q_len x))). lia. }
  revert H. generalize 0%N. induction (ti_requests u) as [|x l IH]; intros n H; [destruct H|]. destruct H as [->|H]; [|apply IH; exact H]. cbn [fold_left].
  destruct (Nat.eqb_spec (q_res q) r); [contradiction|]. cbn [negb]. specialize (G l (N.max n (q_len q))). lia.
Qed.

Lemma longest_other_le r u : (longest_other r u <= nsum (map q_len (ti_requests u)))%N.
Proof.
  unfold longest_other. assert (G : forall l n, (fold_left (fun mx req => if negb (Nat.eqb (q_res req) r) then N.max mx (q_len req) else mx) l n <= n + nsum (map q_len l))%N).
  { induction l as [|x l IH]; intros n; cbn [fold_left map nsum fold_right]; [lia|]. fold (nsum (map q_len l)). destruct (negb _); [specialize (IH (N.max n (q_len x)))|specialize (IH n)]; lia. }
  specialize (G (ti_requests u) 0%N). lia.
Qed.

Lemma sub_perm {A} (sel l : list A) : NoDup sel -> incl sel l -> exists rest, Permutation (sel ++ rest) l.
Proof.
  revert l. induction sel as [|x sel IH]; intros l ND I; [exists l; reflexivity|]. inversion ND as [|? ? NI ND']; subst.
  destruct (in_split x l (I x (or_introl eq_refl))) as [l1 [l2 ->]]. destruct (IH (l1 ++ l2) ND') as [rest P].
  - intros y Hy. specialize (I y (or_intror Hy)). apply in_app_or in I. apply in_or_app. destruct I as [I|[->|I]]; [left; exact I|contradiction|right; exact I].
  - exists rest. cbn [app]. rewrite P. apply Permutation_middle.
Qed.

Lemma nsum_le_pt {A} (f g : A -> N) l : (forall x, In x l -> f x <= g x)%N -> (nsum (map f l) <= nsum (map g l))%N.
Proof. intros H. induction l as [|x l IH]; cbn [map nsum fold_right]; [lia|]. fold (nsum (map f l)) (nsum (map g l)). specialize (IH (fun y Hy => H y (or_intror Hy))). specialize (H x (or_introl eq_refl)). lia. Qed.

Lemma m_largest_ge info tsk r m (sel : list (taskinfo * N)) : NoDup (map fst sel) -> (length sel <= N.to_nat m)%nat ->
  (forall u l, In (u, l) sel -> In u info /\ (ti_prio tsk < ti_prio u)%N /\ exists q, In q (ti_requests u) /\ q_res q <> r /\ l = q_len q) ->
  (nsum (map snd sel) <= m_largest_values info tsk r m)%N.
Proof.
  intros ND L H. unfold m_largest_values. rewrite nsum_fold. change (fun tl => fold_left _ (ti_requests tl) 0%N) with (longest_other r).
  set (lt := lower_tasks info tsk). destruct (sub_perm (map fst sel) lt ND) as [rest P].
  { intros u Hu. apply in_map_iff in Hu. destruct Hu as [[u' l] [<- Hu]]. destruct (H _ _ Hu) as [I [LP _]]. unfold lt, lower_tasks. apply filter_In. split; [exact I|apply N.ltb_lt; exact LP]. }
  apply N.le_trans with (nsum (map (longest_other r) (map fst sel))).
  - rewrite map_map. apply nsum_le_pt. intros [u l] Hu. cbn [fst snd]. destruct (H _ _ Hu) as [_ [_ [q [IQ [NE ->]]]]]. apply longest_other_ge; assumption.
  - rewrite N.add_0_l. apply top_firstn with (rest := map (longest_other r) rest).
    + apply (sort_len_sorted (fun x => x)).
    + rewrite <- map_app. rewrite P. apply sort_len_perm.
    + rewrite !map_length. exact L.
Qed.

Lemma nsum_firstn n l : (nsum (firstn n l) <= nsum l)%N.
Proof. revert n. induction l as [|x l IH]; intros [|n]; cbn [firstn nsum fold_right]; try lia. fold (nsum l) (nsum (firstn n l)). specialize (IH n). lia. Qed.

Lemma nsum_perm a b : Permutation a b -> nsum a = nsum b.
Proof. induction 1; cbn [nsum fold_right] in *; unfold nsum in *; lia. Qed.

Lemma nsum_filter {A} (f : A -> N) p l : (nsum (map f (filter p l)) <= nsum (map f l))%N.
Proof. unfold nsum. induction l as [|x l IH]; cbn [filter map fold_right]; [lia|]. destruct (p x); cbn [map fold_right]; lia. Qed.

Lemma m_largest_le info tsk r m : (m_largest_values info tsk r m <= nsum (map (fun u => nsum (map q_len (ti_requests u))) info))%N.
Proof.
  unfold m_largest_values. rewrite nsum_fold. change (fun tl => fold_left _ (ti_requests tl) 0%N) with (longest_other r). rewrite N.add_0_l.
  eapply N.le_trans; [apply nsum_firstn|]. rewrite <- (nsum_perm _ _ (sort_len_perm (fun x => x) _)). eapply N.le_trans; [apply nsum_filter|]. apply nsum_le_pt. intros u _. apply longest_other_le.
Qed.

Lemma sus_sum info tsk m S : (forall r, m_largest_values info tsk r m <= S)%N -> (nsum (map q_num (ti_requests tsk)) * S < 2 ^ 32)%N ->
  sus_i info tsk m = nsum (map (fun q => q_num q * m_largest_values info tsk (q_res q) m)%N (ti_requests tsk)).
Proof.
  intros HS. unfold sus_i. assert (G : forall l n, (n + nsum (map q_num l) * S < 2 ^ 32)%N ->
    fold_left (fun sum request => u32 (sum + q_num request * m_largest_values info tsk (q_res request) m)) l n = (n + nsum (map (fun q => q_num q * m_largest_values info tsk (q_res q) m)%N l))%N).
  { induction l as [|q l IH]; intros n B; cbn [fold_left map nsum fold_right] in *; [lia|]. fold (nsum (map q_num l)) in B. fold (nsum (map (fun q => q_num q * m_largest_values info tsk (q_res q) m)%N l)).
    specialize (HS (q_res q)). assert (M : (q_num q * m_largest_values info tsk (q_res q) m <= q_num q * S)%N) by (apply N.mul_le_mono_l; exact HS).
    rewrite N.mul_add_distr_r in B. set (x := (q_num q * m_largest_values info tsk (q_res q) m)%N) in *. set (y := (nsum (map q_num l) * S)%N) in *. set (z := (q_num q * S)%N) in *.
    unfold u32 at 2. rewrite N.mod_small by (clearbody x y z; change (2 ^ 32)%N with 4294967296%N in *; lia). rewrite IH; [lia|]. fold y. clearbody x y z. change (2 ^ 32)%N with 4294967296%N in *. lia. }
  intros B. rewrite G by (rewrite N.add_0_l; exact B). lia.
Qed.

(** While a job waits for a resource, jobs of lower priority that hold other
    resources may execute, one per processor.  For tasks that are not among the
    [m] highest priorities the bound includes the longest such delay for each of
    its requests, however they are chosen. *)
Theorem C72_expelling : forall info m i tsk total local total' local' (chosen : reqspec -> list (taskinfo * N)), nth_error info i = Some tsk -> (m <= ti_prio tsk)%N ->
  nth_error (ppcp_bounds info m false) i = Some (total, local) -> nth_error (global_pip_bounds info m) i = Some (total', local') ->
  (nsum (map q_num (ti_requests tsk)) * nsum (map (fun u => nsum (map q_len (ti_requests u))) info) < 2 ^ 32)%N ->
  (forall q, In q (ti_requests tsk) -> NoDup (map fst (chosen q)) /\ (length (chosen q) <= N.to_nat m)%nat /\
    forall u l, In (u, l) (chosen q) -> In u info /\ (ti_prio tsk < ti_prio u)%N /\ exists q', In q' (ti_requests u) /\ q_res q' <> q_res q /\ l = q_len q') ->
  (total' + nsum (map (fun q => q_num q * nsum (map snd (chosen q))) (ti_requests tsk)) <= total)%N.
Proof.
  intros info m i tsk total local total' local' chosen E HM H H' B HC. rewrite (ppcp_result _ _ _ _ _ E) in H. rewrite (pip_result _ _ _ _ E) in H'. unfold ppcp_task in H. unfold global_pip_task in H'.
  injection H as <- <-. injection H' as <- <-. unfold compute_Ilp_i. destruct (N.leb_spec m (ti_prio tsk)); [|lia].
  rewrite (sus_sum info tsk m _ (fun r => m_largest_le info tsk r m) B).
  assert (X : (nsum (map (fun q => q_num q * nsum (map snd (chosen q))) (ti_requests tsk)) <= nsum (map (fun q => q_num q * m_largest_values info tsk (q_res q) m) (ti_requests tsk)))%N).
  { apply nsum_le_pt. intros q Hq. apply N.mul_le_mono_l. destruct (HC q Hq) as [ND [L S]]. apply m_largest_ge; assumption. }
  set (a := nsum _) in X |- *. set (b := nsum _) in X |- *. clearbody a b. lia.
Qed.
Print Assumptions C72_expelling.

(** two processors, three tasks of lower priority with sections 4, 2 and 3 *)
Definition ex72 : list taskinfo :=
  [TI 0 0 50 50 50 0 2 []; TI 1 1 50 50 50 0 2 []; TI 2 2 50 50 50 0 2 [Req 0 1 1 false];
   TI 3 3 50 50 50 0 6 [Req 1 1 4 false]; TI 4 4 50 50 50 0 6 [Req 2 1 2 false]; TI 5 5 50 50 50 0 6 [Req 1 1 3 false; Req 0 1 5 false]].
Example C72_expelling_case : nth_error (ppcp_bounds ex72 2 false) 2 = Some (12, 0)%N /\ nth_error (global_pip_bounds ex72 2) 2 = Some (5, 0)%N.
Proof. vm_compute. split; reflexivity. Qed.

Lemma in_order_spec l : in_order l = true <-> forall i d d', nth_error l i = Some d -> nth_error l (S i) = Some d' -> (d <= d')%N.
Proof.
  induction l as [|x l IH]; [split; [intros _ i d d' H; destruct i; discriminate|reflexivity]|]. destruct l as [|y l].
  - split; [intros _ i d d' _ H; destruct i; cbn in H; try discriminate; destruct i; discriminate|reflexivity].
  - cbn [in_order]. destruct (N.ltb_spec y x) as [L|L].
    + split; [discriminate|]. intros H. specialize (H O x y eq_refl eq_refl). lia.
    + rewrite IH. split.
      * intros H [|i] d d' H1 H2; [injection H1 as <-; injection H2 as <-; exact L|exact (H i d d' H1 H2)].
      * intros H i d d' H1 H2. exact (H (S i) d d' H1 H2).
Qed.

(** 'Reasonable' means that among all but the first [m] tasks deadlines do not
    decrease, for any two of them. *)
Theorem C72_reasonable : forall m info, is_reasonable_priority_assignment m info = true <->
  forall i j t u, (m <= i < j)%nat -> nth_error info i = Some t -> nth_error info j = Some u -> (ti_deadline t <= ti_deadline u)%N.
Proof.
  intros m info. unfold is_reasonable_priority_assignment. rewrite in_order_spec.
  assert (SK : forall i, nth_error (map ti_deadline (skipn m info)) i = option_map ti_deadline (nth_error info (m + i))).
  { intros i. rewrite nth_error_map. f_equal. revert info. induction m as [|m IH]; intros l; [reflexivity|]. destruct l; [destruct i; reflexivity|]. cbn. apply IH. }
  split.
  - intros H i j t u HI Ei Ej. revert u Ej. destruct HI as [HI HJ]. induction HJ as [|j HJ IH]; intros u Ej.
    + apply (H (i - m)%nat); rewrite SK; [replace (m + (i - m))%nat with i by lia; rewrite Ei; reflexivity|replace (m + S (i - m))%nat with (S i) by lia; rewrite Ej; reflexivity].
    + destruct (nth_error info j) as [v|] eqn:Ev.
      * apply N.le_trans with (ti_deadline v); [apply IH; reflexivity|]. apply (H (j - m)%nat); rewrite SK; [replace (m + (j - m))%nat with j by lia; rewrite Ev; reflexivity|replace (m + S (j - m))%nat with (S j) by lia; rewrite Ej; reflexivity].
      * apply nth_error_None in Ev. assert (S j < length info)%nat by (apply nth_error_Some; congruence). lia.
  - intros H i d d' H1 H2. rewrite SK in H1, H2. destruct (nth_error info (m + i)) as [t|] eqn:E1; [|discriminate]. destruct (nth_error info (m + S i)) as [u|] eqn:E2; [|discriminate].
    cbn in H1, H2. injection H1 as <-. injection H2 as <-. apply (H (m + i)%nat (m + S i)%nat t u); [lia|exact E1|exact E2].
Qed.
Print Assumptions C72_reasonable.

Example C72_reasonable_case : is_reasonable_priority_assignment 1 ex70 = true /\ is_reasonable_priority_assignment 0 (rev ex70) = false.
Proof. split; reflexivity. Qed.
