(** LP-based blocking bounds for unordered spin locks (C52). *)
From Coq Require Import NArith ZArith QArith List Bool Lia Lqa.
From Verif Require Import ModelLocking SpecLocking ModelLP ModelLPSpin ModelLPUnordered SpecLP SpecSpinFP ProofLP ProofLPSpin ProofSpinCount ProofSpinFP ProofSpinRTA ProofLPUnordered PropLPSpin.
Import ListNotations.
Open Scope Z_scope.

(** The search for the wait-time bound ends: with a bound, or above the period. *)
Theorem C52_terminates : forall info ti q, wf_info info -> exists w, bound_wait_time info ti q = WaitBound w \/ bound_wait_time info ti q = NotConverged.
Proof.
  intros info ti q WF. pose proof (bound_wait_terminates info ti q WF) as H. destruct (bound_wait_time info ti q) as [w| |]; [exists w; auto|exists 0%N; auto|destruct (H eq_refl)].
Qed.
Print Assumptions C52_terminates.
(** a remote task that asks for the lock in 30 out of 31 time units never lets the search converge *)
Definition ex_heavy : list taskinfo := [TI 0 0 100 100 5 0 2 [Req 0 1 1 false]; TI 1 0 31 31 31 1 30 [Req 0 1 30 false]].
Example C52_terminates_case : wf_info ex_info /\ wf_info ex_heavy /\ bound_wait_time ex_info (TI 2 1 100 100 6 0 3 [Req 0 1 2 false]) 0 = WaitBound 2 /\
  bound_wait_time ex_heavy (TI 0 0 100 100 5 0 2 [Req 0 1 1 false]) 0 = NotConverged.
Proof.
  split; [exact ex_wf|]. split; [|split; vm_compute; reflexivity]. split; [reflexivity|]. intros t [<-|[<-|[]]]; (split; [reflexivity|cbn; constructor; [intros []|constructor]]).
Qed.

(** A waiting request of the task's processor is served within the wait-time bound,
    whatever the order in which the lock is granted. *)
Theorem C52_wait_time_safe : forall info i ti E d q w b tb t, wf_info info -> spin_execution info E -> nth_error info i = Some ti ->
  on_time info E d -> (ti_response ti <= ti_period ti)%N -> bound_wait_time info ti q = WaitBound w -> (0 < w)%N ->
  In b (x_tr E q) -> global_resource info q -> nth_error info (cr_task b) = Some tb -> ti_cluster tb = ti_cluster ti ->
  cr_issue b <= t < cr_start b -> t < d -> t < cr_issue b + Z.of_N w.
Proof.
  intros info i ti E d q w b tb t WF SE HI HO HR BW W0 B G TB CB WB TD. destruct (bound_wait_cases info ti q w BW) as [[-> _]|FIX]; [lia|].
  apply (wait_limited info ti E (t + 1) 0 (t + 1) WF SE HR) with (q := q) (tb := tb); try assumption; [|cbn; lia|cbn; lia].
  intros j k tj HJ HT. apply (HO j k tj HJ). lia.
Qed.
Print Assumptions C52_wait_time_safe.
(** task 2's processor waits for nobody here; task 1 waits from 1 to 2 *)
Example C52_wait_case : bound_wait_time ex_info (TI 1 0 100 100 5 1 2 [Req 0 1 1 false]) 0 = WaitBound 4 /\
  In (CReq 1 0 1 1 2 3) (x_tr ex_exec 0) /\ global_resource ex_info 0.
Proof. split; [vm_compute; reflexivity|]. split; [right; left; reflexivity|exact ex_global]. Qed.

(** In a busy window that starts at a quiet time and is not longer than the
    response-time bound, the time in which the processor neither idles nor works on
    jobs of the task's priority or higher is at most the rounded optimum. *)
Theorem C52_window_safe : forall info i ti E ts n d opt, wf_info info -> distinct_priorities info -> spin_execution info E ->
  nth_error info i = Some ti -> Z.of_nat n <= Z.of_N (ti_response ti) -> (ti_response ti <= ti_period ti)%N ->
  quiet info E (ti_cluster ti) (ti_prio ti) ts -> busy info E (ti_cluster ti) (ti_prio ti) ts (ts + Z.of_nat n) ->
  on_time info E d -> ts + Z.of_nat n <= d -> solved (unordered_lp info ti) opt ->
  Z.of_nat (count (lost info E (ti_cluster ti) (ti_prio ti)) ts n) <= lrint opt.
Proof. intros info i ti E ts n d opt WF DP SE HI HN HR HQ HB HO HD S. apply (unordered_blocking info i ti E ts n d opt); try assumption. apply solved_optimum. exact S. Qed.
Print Assumptions C52_window_safe.

(** With these blocking terms, solutions of the response-time equations are safe. *)
Theorem C52_response_times_safe : forall info E B, wf_info info -> distinct_priorities info -> spin_execution info E ->
  (forall i ti, nth_error info i = Some ti -> exists opt, solved (unordered_lp info ti) opt /\ B i = lrint opt) -> response_times_ok info B ->
  forall i k ti, nth_error info i = Some ti -> x_comp E i k <= x_rel E i k + Z.of_N (ti_response ti).
Proof.
  intros info E B WF DP SE HB OK. apply (rta_safe info E B WF DP SE OK). intros i ti ts n d HI HN HQ HU HO HD. destruct (HB i ti HI) as [opt [S ->]].
  apply (C52_window_safe info i ti E ts n d opt); try assumption. apply (OK i ti HI).
Qed.
Print Assumptions C52_response_times_safe.

Lemma ex_unord0 : optimum (unordered_lp ex_info (TI 0 0 100 100 5 0 2 [Req 0 1 1 false])) 3.
Proof. optimum_tac (ex_point_range 0) (ex_point 0). Qed.
Lemma ex_unord1 : optimum (unordered_lp ex_info (TI 1 0 100 100 5 1 2 [Req 0 1 1 false])) 3.
Proof. optimum_tac ex_point3_range ex_point3. Qed.
Lemma ex_unord2 : optimum (unordered_lp ex_info (TI 2 1 100 100 6 0 3 [Req 0 1 2 false])) 1.
Proof. optimum_tac (ex_point_range 2) (ex_point 2). Qed.

Lemma ex_solved_unord i t : nth_error ex_info i = Some t -> exists opt, solved (unordered_lp ex_info t) opt /\ ex_base i = lrint opt.
Proof.
  intros H. apply ex_nth in H as H'. destruct H' as [->|[->| ->]]; cbn in H; injection H as <-.
  - exists 3%Q. split; [apply solved_small; [vm_compute; reflexivity|exact ex_unord0]|reflexivity].
  - exists 3%Q. split; [apply solved_small; [vm_compute; reflexivity|exact ex_unord1]|reflexivity].
  - exists 1%Q. split; [apply solved_small; [vm_compute; reflexivity|exact ex_unord2]|reflexivity].
Qed.
Example C52_case : wf_info ex_info /\ distinct_priorities ex_info /\ spin_execution ex_info ex_exec /\
  (forall i ti, nth_error ex_info i = Some ti -> exists opt, solved (unordered_lp ex_info ti) opt /\ ex_base i = lrint opt) /\ response_times_ok ex_info ex_base.
Proof. exact (conj ex_wf (conj ex_distinct (conj ex_spin (conj ex_solved_unord (proj2 C51_case))))). Qed.

(** The program always has a solution, and its optimum is not above the baseline's. *)
Theorem C52_feasible : forall info ti, feasible (unordered_lp info ti) (fun _ => 0%Q).
Proof.
  assert (Z0 : forall ti b rs, (isum (fun _ => 0%Q) ti b rs == 0)%Q) by (intros; unfold isum; apply qsum_zero; intros r _; apply qsum_zero; intros v _; reflexivity).
  intros info ti. apply unordered_feasible; [| |intros; split; discriminate].
  - constructor; try (intros; reflexivity).
    + intros. discriminate.
    + rewrite qsum_zero by (intros; reflexivity). discriminate.
    + intros. left. reflexivity.
    + intros. rewrite Z0. apply Qle_refl.
    + intros. apply Z0.
    + intros. rewrite Z0. apply Qle_refl.
    + intros. rewrite Z0. apply nq_nonneg.
  - constructor; intros; rewrite Z0; [apply nq_nonneg|]. rewrite Qmult_0_r. apply Qle_refl.
Qed.
Print Assumptions C52_feasible.

Theorem C52_not_above_baseline : forall info ti a b, optimum (unordered_lp info ti) a -> optimum (baseline_lp info ti) b -> (a <= b)%Q.
Proof.
  intros info ti a b [[x [F V]] _] [_ U]. rewrite <- V, unordered_objective, <- baseline_objective. apply U. apply unordered_baseline_feasible. exact F.
Qed.
Print Assumptions C52_not_above_baseline.

(** a remote task with a short period: 5 of its requests fit into the response time,
    but only one into the wait for one request *)
Definition ex_fast : list taskinfo := [TI 0 0 100 100 40 0 2 [Req 0 1 1 false]; TI 1 0 10 10 5 1 2 [Req 0 1 1 false]].
Definition ex_fast_point (m : nat) (v : var) : Q := match v with Var 1 0 k BLOCKING_DIRECT => if Nat.ltb k m then 1%Q else 0%Q | _ => 0%Q end.
Lemma ex_fast_range m v : (0 <= ex_fast_point m v <= 1)%Q.
Proof. unfold ex_fast_point. destruct v as [[|[|]] [|] k []]; try (split; discriminate). destruct (Nat.ltb k m); split; discriminate. Qed.
Example C52_not_above_baseline_case :
  optimum (unordered_lp ex_fast (TI 0 0 100 100 40 0 2 [Req 0 1 1 false])) 1 /\ optimum (baseline_lp ex_fast (TI 0 0 100 100 40 0 2 [Req 0 1 1 false])) 5.
Proof. split; [optimum_tac (ex_fast_range 1) (ex_fast_point 1)|optimum_tac (ex_fast_range 5) (ex_fast_point 5)]. Qed.
