(** LP-based blocking bounds for priority-ordered spin locks (C53), and with FIFO
    order among equal priorities (C54). *)
From Coq Require Import NArith ZArith QArith List Bool Lia Lqa.
From Verif Require Import ModelLocking SpecLocking ModelLP ModelLPSpin ModelLPUnordered ModelLPPrio SpecLP SpecSpinFP SpecPrio ProofLP ProofLPSpin ProofSpinCount ProofSpinFP ProofSpinRTA ProofLPUnordered ProofLPPrio ProofSpinTable PropLPSpin PropLPUnordered.
Import ListNotations.
Open Scope Z_scope.

(** ** A case: three processors with one task each; task 0's requests are served
    before those of task 1, and those before task 2's.  Task 2 holds the lock in
    [0,2); task 1 asks for it at 0 and task 0 at 1; task 0 gets it first. *)
Definition pr_info : list taskinfo :=
  [TI 0 0 100 100 7 0 2 [Req 0 1 1 false]; TI 1 0 100 100 7 1 1 [Req 0 1 1 false]; TI 2 0 100 100 7 2 3 [Req 0 1 2 false]].
Definition pr_prio (i q : nat) : N := N.of_nat i.
Definition pr_table : table := Table 4 100 [[(0, 3)]; [(0, 4)]; [(0, 3)]]
  [[CReq 2 0 2 0 0 2; CReq 0 0 0 1 2 3; CReq 1 0 1 0 3 4]]
  [repeat (Some (0%nat, 0%nat)) 3; repeat (Some (1%nat, 0%nat)) 4; repeat (Some (2%nat, 0%nat)) 3].
Lemma pr_spin : spin_execution pr_info (table_exec pr_table).
Proof. apply table_ok_sound. vm_compute. reflexivity. Qed.

(** deciding the order of a table *)
Lemma table_priority rp info T :
  pairs_ok info T (fun q a b => negb ((cr_issue b <? cr_start a) && (cr_start a <? cr_start b)) || (rp (cr_task a) q <=? rp (cr_task b) q)%N) = true ->
  priority_order rp info (table_exec T).
Proof.
  intros OK q a b G A B. refine (pairs_sound info T _ (fun q a b => cr_issue b < cr_start a -> cr_start a < cr_start b -> (rp (cr_task a) q <= rp (cr_task b) q)%N) _ OK q a b G A B).
  intros r c e H I S. rewrite orb_true_iff, negb_true_iff in H. destruct H as [H|H]; [|apply N.leb_le; exact H].
  assert (X : (cr_issue e <? cr_start c) && (cr_start c <? cr_start e) = true) by (rewrite andb_true_iff, !Z.ltb_lt; lia). congruence.
Qed.
Lemma table_fifo rp info T :
  pairs_ok info T (fun q a b => negb ((rp (cr_task a) q =? rp (cr_task b) q)%N && (cr_issue a <? cr_issue b)) || (cr_end a <=? cr_start b)) = true ->
  fifo_among_equals rp info (table_exec T).
Proof.
  intros OK q a b G A B. refine (pairs_sound info T _ (fun q a b => rp (cr_task a) q = rp (cr_task b) q -> cr_issue a < cr_issue b -> cr_end a <= cr_start b) _ OK q a b G A B).
  intros r c e H I S. rewrite orb_true_iff, negb_true_iff in H. destruct H as [H|H]; [|apply Z.leb_le; exact H].
  assert (X : (rp (cr_task c) r =? rp (cr_task e) r)%N && (cr_issue c <? cr_issue e) = true) by (rewrite andb_true_iff, N.eqb_eq, Z.ltb_lt; auto). congruence.
Qed.

Lemma pr_order : priority_order pr_prio pr_info (table_exec pr_table).
Proof. apply table_priority. vm_compute. reflexivity. Qed.

(** ** Priority-ordered locks *)

(** The search for the wait-time bound ends: with a bound, or above the period. *)
Theorem C53_terminates : forall rp info ti q lprio, wf_info info ->
  exists w, bound_wait_time_prio rp info ti q lprio = WaitBound w \/ bound_wait_time_prio rp info ti q lprio = NotConverged.
Proof.
  intros rp info ti q lprio WF. destruct (bound_wait_time_prio rp info ti q lprio) as [w| |] eqn:E; [exists w; auto|exists 0%N; auto|]. exfalso.
  revert E. apply (prio_search_terminates info ti q). exact WF.
Qed.
Print Assumptions C53_terminates.
Definition pr_task0 := TI 0 0 100 100 7 0 2 [Req 0 1 1 false].
Definition pr_task1 := TI 1 0 100 100 7 1 1 [Req 0 1 1 false].
Definition pr_task2 := TI 2 0 100 100 7 2 3 [Req 0 1 2 false].
Example C53_terminates_case : wf_info pr_info /\ map (fun t => bound_wait_time_prio pr_prio pr_info t 0 (pr_prio (ti_id t) 0%nat)) pr_info = [WaitBound 3; WaitBound 4; WaitBound 0].
Proof.
  split; [|vm_compute; reflexivity]. split; [reflexivity|]. intros t [<-|[<-|[<-|[]]]]; (split; [reflexivity|cbn; constructor; [intros []|constructor]]).
Qed.

(** In a busy window that starts at a quiet time and is not longer than the
    response-time bound, the time in which the processor neither idles nor works on
    jobs of the task's priority or higher is at most the rounded optimum, if each
    processor has one locking priority per resource and not the lowest. *)
Theorem C53_window_safe : forall rp info i ti E ts n d opt, wf_info info -> distinct_priorities info -> spin_execution info E -> priority_order rp info E ->
  nth_error info i = Some ti -> Z.of_nat n <= Z.of_N (ti_response ti) -> (ti_response ti <= ti_period ti)%N ->
  quiet info E (ti_cluster ti) (ti_prio ti) ts -> busy info E (ti_cluster ti) (ti_prio ti) ts (ts + Z.of_nat n) ->
  on_time info E d -> ts + Z.of_nat n <= d -> prio_condition rp info (ti_cluster ti) -> solved (prio_lp rp info ti) opt ->
  Z.of_nat (count (lost info E (ti_cluster ti) (ti_prio ti)) ts n) <= lrint opt.
Proof.
  intros rp info i ti E ts n d opt WF DP SE PO HI HN HR HQ HB HO HD PC S. apply (prio_blocking rp info i ti E ts n d opt); try assumption. apply solved_optimum. exact S.
Qed.
Print Assumptions C53_window_safe.

(** With these blocking terms for the processors that do not have the lowest locking
    priority, and those of any order for the others, solutions of the response-time equations are safe. *)
Theorem C53_response_times_safe : forall rp info E B, wf_info info -> distinct_priorities info -> spin_execution info E -> priority_order rp info E ->
  (forall i ti, nth_error info i = Some ti -> exists opt, B i = lrint opt /\
    ((prio_condition rp info (ti_cluster ti) /\ solved (prio_lp rp info ti) opt) \/ solved (unordered_lp info ti) opt)) ->
  response_times_ok info B ->
  forall i k ti, nth_error info i = Some ti -> x_comp E i k <= x_rel E i k + Z.of_N (ti_response ti).
Proof.
  intros rp info E B WF DP SE PO HB OK. apply (rta_safe info E B WF DP SE OK). intros i ti ts n d HI HN HQ HU HO HD. destruct (HB i ti HI) as [opt [-> [[PC S]|S]]].
  - apply (C53_window_safe rp info i ti E ts n d opt); try assumption. apply (OK i ti HI).
  - apply (C52_window_safe info i ti E ts n d opt); try assumption. apply (OK i ti HI).
Qed.
Print Assumptions C53_response_times_safe.

Definition direct_point (f : nat -> bool) (v : var) : Q := match v with Var x 0 0 BLOCKING_DIRECT => if f x then 1%Q else 0%Q | _ => 0%Q end.
Lemma direct_range f v : (0 <= direct_point f v <= 1)%Q.
Proof. unfold direct_point. destruct v as [x [|] [|] []]; try (split; discriminate). destruct (f x); split; discriminate. Qed.
Lemma pr_opt0 : optimum (prio_lp pr_prio pr_info pr_task0) 2.
Proof. optimum_tac (direct_range (fun x => Nat.eqb x 2)) (direct_point (fun x => Nat.eqb x 2)). Qed.
Lemma pr_opt1 : optimum (prio_lp pr_prio pr_info pr_task1) 3.
Proof. optimum_tac (direct_range (fun _ => true)) (direct_point (fun _ => true)). Qed.
Lemma pr_opt2 : optimum (unordered_lp pr_info pr_task2) 2.
Proof. optimum_tac (direct_range (fun _ => true)) (direct_point (fun _ => true)). Qed.

Lemma pr_global : global_resource pr_info 0.
Proof. apply globalb_iff. vm_compute. reflexivity. Qed.
Lemma only_resource info q : (forall t r, In t info -> In r (ti_requests t) -> q_res r = 0%nat) -> global_resource info q -> q = 0%nat.
Proof. intros H [t [_ [[T [r [R1 R2]]] _]]]. rewrite <- R2. apply (H t r T R1). Qed.
Lemma pr_q q : global_resource pr_info q -> q = 0%nat.
Proof. apply only_resource. intros t r [<-|[<-|[<-|[]]]] [<-|[]]; reflexivity. Qed.
Lemma pr_cond c : (c < 2)%nat -> prio_condition pr_prio pr_info c.
Proof.
  intros C q G. apply pr_q in G. subst q. exists (N.of_nat c). split; [|split; [cbn; lia|]].
  - intros t [[<-|[<-|[<-|[]]]] _] <-; reflexivity.
  - exists pr_task2, (Req 0 1 2 false). split; [right; right; left; reflexivity|]. split; [cbn; lia|]. split; [left; reflexivity|]. split; [reflexivity|]. split; [reflexivity|]. left. cbn. lia.
Qed.
Definition pr_bound (i : nat) : Z := match i with O => 2 | S O => 3 | _ => 2 end.
Example C53_case : wf_info pr_info /\ distinct_priorities pr_info /\ spin_execution pr_info (table_exec pr_table) /\ priority_order pr_prio pr_info (table_exec pr_table) /\
  (forall i ti, nth_error pr_info i = Some ti -> exists opt, pr_bound i = lrint opt /\
    ((prio_condition pr_prio pr_info (ti_cluster ti) /\ solved (prio_lp pr_prio pr_info ti) opt) \/ solved (unordered_lp pr_info ti) opt)) /\
  response_times_ok pr_info pr_bound.
Proof.
  split; [apply C53_terminates_case|]. split; [intros t u [<-|[<-|[<-|[]]]] [<-|[<-|[<-|[]]]]; cbn; intros; try reflexivity; discriminate|]. split; [exact pr_spin|]. split; [exact pr_order|]. split.
  - intros i ti H. destruct i as [|[|[|i]]]; cbn in H; [| | |destruct i; discriminate]; injection H as <-.
    + exists 2%Q. split; [reflexivity|]. left. split; [apply pr_cond; cbn; lia|]. apply solved_small; [vm_compute; reflexivity|exact pr_opt0].
    + exists 3%Q. split; [reflexivity|]. left. split; [apply pr_cond; cbn; lia|]. apply solved_small; [vm_compute; reflexivity|exact pr_opt1].
    + exists 2%Q. split; [reflexivity|]. right. apply solved_small; [vm_compute; reflexivity|exact pr_opt2].
  - intros i ti H. destruct i as [|[|[|i]]]; cbn in H; [| | |destruct i; discriminate]; injection H as <-; (split; [vm_compute; discriminate|split; [reflexivity|vm_compute; discriminate]]).
Qed.

(** On the processor with the lowest locking priority the wait-time bound is zero,
    so one request of each task is counted; but task 0 waits for two requests of task 1.
    The same program arises when the priorities are dropped on the way from Python. *)
Definition low_info : list taskinfo :=
  [TI 0 0 100 100 9 0 1 [Req 0 1 1 false]; TI 1 0 8 8 8 1 4 [Req 0 1 4 false]; TI 2 0 8 8 8 2 4 [Req 0 1 4 false]].
Definition low_task := TI 0 0 100 100 9 0 1 [Req 0 1 1 false].
Definition low_prio (i q : nat) : N := if Nat.eqb i 0 then 2%N else 1%N.
Definition low_table : table := Table 13 100 [[(0, 13)]; [(0, 4); (8, 12)]; [(4, 8)]]
  [[CReq 1 0 1 0 0 4; CReq 0 0 0 0 12 13; CReq 2 0 2 4 4 8; CReq 1 1 1 8 8 12]]
  [repeat (Some (0%nat, 0%nat)) 13; repeat (Some (1%nat, 0%nat)) 4 ++ repeat None 4 ++ repeat (Some (1%nat, 1%nat)) 4; repeat None 4 ++ repeat (Some (2%nat, 0%nat)) 4].

Lemma low_spin : spin_execution low_info (table_exec low_table).
Proof. apply table_ok_sound. vm_compute. reflexivity. Qed.
Lemma low_order : priority_order low_prio low_info (table_exec low_table) /\ fifo_among_equals low_prio low_info (table_exec low_table).
Proof. split; [apply table_priority|apply table_fifo]; vm_compute; reflexivity. Qed.
Lemma low_opt : optimum (prio_lp low_prio low_info low_task) 8.
Proof. optimum_tac (direct_range (fun _ => true)) (direct_point (fun _ => true)). Qed.
Lemma low_opt_dropped : optimum (prio_lp (get_cpp_model_priorities low_prio) low_info low_task) 8.
Proof. optimum_tac (direct_range (fun _ => true)) (direct_point (fun _ => true)). Qed.

Lemma low_on_time i k t : i <> 0%nat -> nth_error low_info i = Some t -> x_comp (table_exec low_table) i k <= x_rel (table_exec low_table) i k + Z.of_N (ti_response t).
Proof.
  intros NE H. destruct i as [|[|[|i]]]; [contradiction| | |destruct i; discriminate]; injection H as <-; cbn [x_comp x_rel table_exec].
  - change (jobs low_table 1) with [(0, 4); (8, 12)]. destruct k as [|[|k]]; cbn [nth_error fst snd ti_response]; [lia|lia|]. destruct (nth_error [] k) as [[]|] eqn:K; [destruct k; discriminate|lia].
  - change (jobs low_table 2) with [(4, 8)]. destruct k as [|k]; cbn [nth_error fst snd ti_response]; [lia|]. destruct (nth_error [] k) as [[]|] eqn:K; [destruct k; discriminate|lia].
Qed.

Theorem C53_lowest_unsafe : exists rp info E ti opt, wf_info info /\ distinct_priorities info /\ spin_execution info E /\ priority_order rp info E /\ fifo_among_equals rp info E /\
  nth_error info 0 = Some ti /\ (forall u, In u info -> ti_cluster u = ti_cluster ti -> u = ti) /\
  (forall i k u, i <> 0%nat -> nth_error info i = Some u -> x_comp E i k <= x_rel E i k + Z.of_N (ti_response u)) /\
  solved (prio_lp rp info ti) opt /\ solved (prio_lp (get_cpp_model_priorities rp) info ti) opt /\
  Z.of_N (ti_cost ti) + lrint opt <= Z.of_N (ti_response ti) /\ (ti_response ti <= ti_period ti)%N /\
  x_rel E 0 0 + Z.of_N (ti_response ti) < x_comp E 0 0.
Proof.
  exists low_prio, low_info, (table_exec low_table), low_task, 8%Q.
  split; [split; [reflexivity|]; intros t [<-|[<-|[<-|[]]]]; (split; [reflexivity|cbn; constructor; [intros []|constructor]])|].
  split; [intros t u [<-|[<-|[<-|[]]]] [<-|[<-|[<-|[]]]]; cbn; intros; try reflexivity; discriminate|]. split; [exact low_spin|]. split; [apply low_order|]. split; [apply low_order|]. split; [reflexivity|].
  split; [intros u [<-|[<-|[<-|[]]]]; cbn; intros; try reflexivity; discriminate|]. split; [exact low_on_time|].
  split; [apply solved_small; [vm_compute; reflexivity|exact low_opt]|]. split; [apply solved_small; [vm_compute; reflexivity|exact low_opt_dropped]|].
  split; [vm_compute; discriminate|]. split; [vm_compute; discriminate|]. vm_compute. reflexivity.
Qed.
Print Assumptions C53_lowest_unsafe.

(** Arrival blocking is limited with the priorities of the tasks of higher priority
    (min_prioHP): a local task of lower priority whose requests have a lower locking
    priority waits for more than that. *)
Definition mix_info : list taskinfo :=
  [TI 0 0 100 100 10 0 1 [Req 0 1 1 false]; TI 1 1 100 100 50 0 1 [Req 0 1 1 false];
   TI 2 0 100 100 50 1 4 [Req 0 1 4 false]; TI 3 0 100 100 50 2 4 [Req 0 1 4 false]; TI 4 0 100 100 50 3 4 [Req 0 1 4 false]].
Definition mix_task := TI 0 0 100 100 10 0 1 [Req 0 1 1 false].
Definition mix_prio (i q : nat) : N := match i with O => 1%N | S O => 3%N | _ => 2%N end.
Definition mix_table : table := Table 14 100 [[(1, 14)]; [(0, 13)]; [(0, 4)]; [(0, 8)]; [(0, 12)]]
  [[CReq 2 0 1 0 0 4; CReq 3 0 2 0 4 8; CReq 4 0 3 0 8 12; CReq 1 0 0 0 12 13; CReq 0 0 0 13 13 14]]
  [repeat (Some (1%nat, 0%nat)) 13 ++ [Some (0%nat, 0%nat)]; repeat (Some (2%nat, 0%nat)) 4; repeat (Some (3%nat, 0%nat)) 8; repeat (Some (4%nat, 0%nat)) 12].
Definition mix_point (v : var) : Q := match v with Var 2 0 0 BLOCKING_DIRECT | Var 3 0 0 BLOCKING_ARRIVAL | Var 1 0 0 BLOCKING_ARRIVAL | Var 0 0 0 BLOCKING_PREEMPT => 1%Q | _ => 0%Q end.
Lemma mix_range v : (0 <= mix_point v <= 1)%Q.
Proof. unfold mix_point. destruct v as [[|[|[|[|]]]] [|] [|] []]; split; discriminate. Qed.
Lemma mix_opt : optimum (prio_lp mix_prio mix_info mix_task) 9.
Proof. optimum_tac mix_range mix_point. Qed.

Lemma table_on_time T i k r : forallb (fun j => snd j <=? fst j + r) (jobs T i) = true -> 0 <= r -> x_comp (table_exec T) i k <= x_rel (table_exec T) i k + r.
Proof.
  rewrite forallb_forall. intros H R. cbn [x_comp x_rel table_exec]. destruct (nth_error (jobs T i) k) as [j|] eqn:K; [|lia]. specialize (H j (nth_error_In _ _ K)). apply Z.leb_le in H. exact H.
Qed.

Theorem C53_mixed_unsafe : exists rp info E ti opt, wf_info info /\ distinct_priorities info /\ spin_execution info E /\ priority_order rp info E /\
  nth_error info 0 = Some ti /\ (forall u, In u info -> ti_cluster u = ti_cluster ti -> u = ti \/ (ti_prio ti < ti_prio u)%N) /\
  (exists u, In u info /\ ti_cluster u <> ti_cluster ti /\ uses info 0 u /\ (rp (ti_id ti) 0%nat < rp (ti_id u) 0%nat)%N) /\
  (forall i k u, i <> 0%nat -> nth_error info i = Some u -> x_comp E i k <= x_rel E i k + Z.of_N (ti_response u)) /\
  solved (prio_lp rp info ti) opt /\ Z.of_N (ti_cost ti) + lrint opt <= Z.of_N (ti_response ti) /\ (ti_response ti <= ti_period ti)%N /\
  x_rel E 0 0 + Z.of_N (ti_response ti) < x_comp E 0 0.
Proof.
  exists mix_prio, mix_info, (table_exec mix_table), mix_task, 9%Q.
  split; [split; [reflexivity|]; intros t [<-|[<-|[<-|[<-|[<-|[]]]]]]; (split; [reflexivity|cbn; constructor; [intros []|constructor]])|].
  split; [intros t u [<-|[<-|[<-|[<-|[<-|[]]]]]] [<-|[<-|[<-|[<-|[<-|[]]]]]]; cbn; intros; try reflexivity; discriminate|].
  split; [apply table_ok_sound; vm_compute; reflexivity|]. split; [apply table_priority; vm_compute; reflexivity|]. split; [reflexivity|].
  split; [intros u [<-|[<-|[<-|[<-|[<-|[]]]]]]; cbn; intros; first [left; reflexivity|right; reflexivity|discriminate]|].
  split; [exists (TI 2 0 100 100 50 1 4 [Req 0 1 4 false]); split; [right; right; left; reflexivity|split; [discriminate|split; [|reflexivity]]]; split; [right; right; left; reflexivity|exists (Req 0 1 4 false); split; [left; reflexivity|reflexivity]]|].
  split; [intros i k u NE H; destruct i as [|[|[|[|[|i]]]]]; [contradiction| | | | |destruct i; discriminate]; injection H as <-; apply table_on_time; vm_compute; first [reflexivity|discriminate]|].
  split; [apply solved_small; [vm_compute; reflexivity|exact mix_opt]|]. split; [vm_compute; discriminate|]. split; [vm_compute; discriminate|]. vm_compute. reflexivity.
Qed.
Print Assumptions C53_mixed_unsafe.

(** ** Priority order, FIFO among equals *)

Theorem C54_terminates : forall rp info ti q lprio, wf_info info ->
  exists w, bound_wait_time_prio_fifo rp info ti q lprio = WaitBound w \/ bound_wait_time_prio_fifo rp info ti q lprio = NotConverged.
Proof.
  intros rp info ti q lprio WF. destruct (bound_wait_time_prio_fifo rp info ti q lprio) as [w| |] eqn:E; [exists w; auto|exists 0%N; auto|]. exfalso.
  revert E. apply (prio_search_terminates info ti q). exact WF.
Qed.
Print Assumptions C54_terminates.
Definition pf_prio (i q : nat) : N := match i with O => 0%N | _ => 1%N end.
Example C54_terminates_case : map (fun t => bound_wait_time_prio_fifo pf_prio pr_info t 0 (pf_prio (ti_id t) 0%nat)) pr_info = [WaitBound 3; WaitBound 4; WaitBound 3].
Proof. vm_compute. reflexivity. Qed.

Theorem C54_window_safe : forall rp info i ti E ts n d opt, wf_info info -> distinct_priorities info -> spin_execution info E -> priority_order rp info E -> fifo_among_equals rp info E ->
  nth_error info i = Some ti -> Z.of_nat n <= Z.of_N (ti_response ti) -> (ti_response ti <= ti_period ti)%N ->
  quiet info E (ti_cluster ti) (ti_prio ti) ts -> busy info E (ti_cluster ti) (ti_prio ti) ts (ts + Z.of_nat n) ->
  on_time info E d -> ts + Z.of_nat n <= d -> prio_fifo_condition rp info ti -> solved (prio_fifo_lp rp info ti) opt ->
  Z.of_nat (count (lost info E (ti_cluster ti) (ti_prio ti)) ts n) <= lrint opt.
Proof.
  intros rp info i ti E ts n d opt WF DP SE PO FE HI HN HR HQ HB HO HD PC S. apply (prio_fifo_blocking rp info i ti E ts n d opt); try assumption. apply solved_optimum. exact S.
Qed.
Print Assumptions C54_window_safe.

Theorem C54_response_times_safe : forall rp info E B, wf_info info -> distinct_priorities info -> spin_execution info E -> priority_order rp info E -> fifo_among_equals rp info E ->
  (forall i ti, nth_error info i = Some ti -> exists opt, B i = lrint opt /\
    ((prio_fifo_condition rp info ti /\ solved (prio_fifo_lp rp info ti) opt) \/ solved (unordered_lp info ti) opt)) ->
  response_times_ok info B ->
  forall i k ti, nth_error info i = Some ti -> x_comp E i k <= x_rel E i k + Z.of_N (ti_response ti).
Proof.
  intros rp info E B WF DP SE PO FE HB OK. apply (rta_safe info E B WF DP SE OK). intros i ti ts n d HI HN HQ HU HO HD. destruct (HB i ti HI) as [opt [-> [[PC S]|S]]].
  - apply (C54_window_safe rp info i ti E ts n d opt); try assumption. apply (OK i ti HI).
  - apply (C52_window_safe info i ti E ts n d opt); try assumption. apply (OK i ti HI).
Qed.
Print Assumptions C54_response_times_safe.

Lemma pf_opt0 : optimum (prio_fifo_lp pf_prio pr_info pr_task0) 2.
Proof. optimum_tac (direct_range (fun x => Nat.eqb x 2)) (direct_point (fun x => Nat.eqb x 2)). Qed.
Lemma pf_opt1 : optimum (prio_fifo_lp pf_prio pr_info pr_task1) 3.
Proof. optimum_tac (direct_range (fun _ => true)) (direct_point (fun _ => true)). Qed.
Lemma pf_opt2 : optimum (prio_fifo_lp pf_prio pr_info pr_task2) 2.
Proof. optimum_tac (direct_range (fun _ => true)) (direct_point (fun _ => true)). Qed.
Lemma pf_cond t : In t pr_info -> prio_fifo_condition pf_prio pr_info t.
Proof.
  intros T q G. apply pr_q in G. subst q. destruct T as [<-|[<-|[<-|[]]]].
  - exists 0%N. split; [|split; [cbn; lia|left; reflexivity]]. intros t [[<-|[<-|[<-|[]]]] _]; cbn; intros; try reflexivity; discriminate.
  - exists 1%N. split; [intros t [[<-|[<-|[<-|[]]]] _]; cbn; intros; try reflexivity; discriminate|]. split; [cbn; lia|]. right.
    split; [|exists (Req 0 1 1 false); repeat split; left; reflexivity]. exists pr_task2, (Req 0 1 2 false). split; [right; right; left; reflexivity|]. split; [discriminate|]. split; [left; reflexivity|]. repeat split. right. split; reflexivity.
  - exists 1%N. split; [intros t [[<-|[<-|[<-|[]]]] _]; cbn; intros; try reflexivity; discriminate|]. split; [cbn; lia|]. right.
    split; [|exists (Req 0 1 2 false); repeat split; left; reflexivity]. exists pr_task1, (Req 0 1 1 false). split; [right; left; reflexivity|]. split; [discriminate|]. split; [left; reflexivity|]. repeat split. right. split; reflexivity.
Qed.
Example C54_case : priority_order pf_prio pr_info (table_exec pr_table) /\ fifo_among_equals pf_prio pr_info (table_exec pr_table) /\
  (forall i ti, nth_error pr_info i = Some ti -> exists opt, pr_bound i = lrint opt /\
    ((prio_fifo_condition pf_prio pr_info ti /\ solved (prio_fifo_lp pf_prio pr_info ti) opt) \/ solved (unordered_lp pr_info ti) opt)).
Proof.
  split; [apply table_priority; vm_compute; reflexivity|]. split; [apply table_fifo; vm_compute; reflexivity|].
  intros i ti H. destruct i as [|[|[|i]]]; cbn in H; [| | |destruct i; discriminate]; injection H as <-.
  - exists 2%Q. split; [reflexivity|]. left. split; [apply pf_cond; left; reflexivity|]. apply solved_small; [vm_compute; reflexivity|exact pf_opt0].
  - exists 3%Q. split; [reflexivity|]. left. split; [apply pf_cond; right; left; reflexivity|]. apply solved_small; [vm_compute; reflexivity|exact pf_opt1].
  - exists 2%Q. split; [reflexivity|]. left. split; [apply pf_cond; right; right; left; reflexivity|]. apply solved_small; [vm_compute; reflexivity|exact pf_opt2].
Qed.

(** As called from Python the priorities are dropped; the bounds are then safe for
    locks that serve all requests in FIFO order. *)
Theorem C54_as_called_fifo_safe : forall rp info E B, wf_info info -> distinct_priorities info -> spin_execution info E -> fifo_order info E ->
  (forall i ti, nth_error info i = Some ti -> exists opt, B i = lrint opt /\ solved (prio_fifo_lp (get_cpp_model_priorities rp) info ti) opt) ->
  response_times_ok info B ->
  forall i k ti, nth_error info i = Some ti -> x_comp E i k <= x_rel E i k + Z.of_N (ti_response ti).
Proof.
  intros rp info E B WF DP SE FO HB OK. apply (C54_response_times_safe (get_cpp_model_priorities rp) info E B WF DP SE); try assumption.
  - intros q a b _ _ _ _ _. apply N.le_refl.
  - intros q a b G A B' _. apply (FO q a b G A B').
  - intros i ti H. destruct (HB i ti H) as [opt [E1 S]]. exists opt. split; [exact E1|]. left. split; [|exact S]. intros q _. exists 0%N. split; [intros t _ _; reflexivity|]. split; [lia|left; reflexivity].
Qed.
Print Assumptions C54_as_called_fifo_safe.
Lemma ex_called0 : optimum (prio_fifo_lp (get_cpp_model_priorities pf_prio) ex_info (TI 0 0 100 100 5 0 2 [Req 0 1 1 false])) 3.
Proof. optimum_tac (ex_point_range 0) (ex_point 0). Qed.
Lemma ex_called1 : optimum (prio_fifo_lp (get_cpp_model_priorities pf_prio) ex_info (TI 1 0 100 100 5 1 2 [Req 0 1 1 false])) 2.
Proof. optimum_tac (ex_point_range 1) (ex_point 1). Qed.
Lemma ex_called2 : optimum (prio_fifo_lp (get_cpp_model_priorities pf_prio) ex_info (TI 2 1 100 100 6 0 3 [Req 0 1 2 false])) 1.
Proof. optimum_tac (ex_point_range 2) (ex_point 2). Qed.
Example C54_as_called_case : spin_execution ex_info ex_exec /\ fifo_order ex_info ex_exec /\ response_times_ok ex_info ex_bound /\
  forall i ti, nth_error ex_info i = Some ti -> exists opt, ex_bound i = lrint opt /\ solved (prio_fifo_lp (get_cpp_model_priorities pf_prio) ex_info ti) opt.
Proof.
  split; [exact ex_spin|]. split; [exact ex_fifo|]. split; [exact ex_ok|]. intros i ti H. apply ex_nth in H as H'. destruct H' as [->|[->| ->]]; cbn in H; injection H as <-.
  - exists 3%Q. split; [reflexivity|]. apply solved_small; [vm_compute; reflexivity|exact ex_called0].
  - exists 2%Q. split; [reflexivity|]. apply solved_small; [vm_compute; reflexivity|exact ex_called1].
  - exists 1%Q. split; [reflexivity|]. apply solved_small; [vm_compute; reflexivity|exact ex_called2].
Qed.

(** ... but not for locks that serve them by priority: the lock of task 0 above. *)
Lemma low_fifo_opt : optimum (prio_fifo_lp (get_cpp_model_priorities low_prio) low_info low_task) 8.
Proof. optimum_tac (direct_range (fun _ => true)) (direct_point (fun _ => true)). Qed.
Theorem C54_as_called_priority_unsafe : exists rp info E ti opt, wf_info info /\ distinct_priorities info /\ spin_execution info E /\ priority_order rp info E /\ fifo_among_equals rp info E /\
  nth_error info 0 = Some ti /\ (forall u, In u info -> ti_cluster u = ti_cluster ti -> u = ti) /\
  (forall i k u, i <> 0%nat -> nth_error info i = Some u -> x_comp E i k <= x_rel E i k + Z.of_N (ti_response u)) /\
  solved (prio_fifo_lp (get_cpp_model_priorities rp) info ti) opt /\
  Z.of_N (ti_cost ti) + lrint opt <= Z.of_N (ti_response ti) /\ (ti_response ti <= ti_period ti)%N /\
  x_rel E 0 0 + Z.of_N (ti_response ti) < x_comp E 0 0.
Proof.
  exists low_prio, low_info, (table_exec low_table), low_task, 8%Q.
  split; [split; [reflexivity|]; intros t [<-|[<-|[<-|[]]]]; (split; [reflexivity|cbn; constructor; [intros []|constructor]])|].
  split; [intros t u [<-|[<-|[<-|[]]]] [<-|[<-|[<-|[]]]]; cbn; intros; try reflexivity; discriminate|]. split; [exact low_spin|]. split; [apply low_order|]. split; [apply low_order|]. split; [reflexivity|].
  split; [intros u [<-|[<-|[<-|[]]]]; cbn; intros; try reflexivity; discriminate|]. split; [exact low_on_time|].
  split; [apply solved_small; [vm_compute; reflexivity|exact low_fifo_opt]|].
  split; [vm_compute; discriminate|]. split; [vm_compute; discriminate|]. vm_compute. reflexivity.
Qed.
Print Assumptions C54_as_called_priority_unsafe.

(** Remote requests during arrival blocking are multiplied by the number of own
    requests: a task without requests is blocked by a local task that spins, not only by its critical section. *)
Definition arr_info : list taskinfo := [TI 0 0 100 100 2 0 1 []; TI 1 1 100 100 50 0 1 [Req 0 1 1 false]; TI 2 0 100 100 50 1 4 [Req 0 1 4 false]].
Definition arr_task := TI 0 0 100 100 2 0 1 [].
Definition arr_prio (i q : nat) : N := match i with S O => 2%N | _ => 1%N end.
Definition arr_table : table := Table 6 100 [[(1, 6)]; [(0, 5)]; [(0, 4)]]
  [[CReq 2 0 1 0 0 4; CReq 1 0 0 0 4 5]]
  [repeat (Some (1%nat, 0%nat)) 5 ++ [Some (0%nat, 0%nat)]; repeat (Some (2%nat, 0%nat)) 4].
Definition arr_point (v : var) : Q := match v with Var 1 0 0 BLOCKING_ARRIVAL | Var 0 0 0 BLOCKING_PREEMPT => 1%Q | _ => 0%Q end.
Lemma arr_range v : (0 <= arr_point v <= 1)%Q.
Proof. unfold arr_point. destruct v as [[|[|]] [|] [|] []]; split; discriminate. Qed.
Lemma arr_opt : optimum (prio_fifo_lp arr_prio arr_info arr_task) 1.
Proof. optimum_tac arr_range arr_point. Qed.

Theorem C54_arrival_unsafe : exists rp info E ti opt, wf_info info /\ distinct_priorities info /\ spin_execution info E /\ priority_order rp info E /\ fifo_among_equals rp info E /\
  (forall c q, exists pi, uniform_priority rp info c q pi) /\
  nth_error info 0 = Some ti /\ (forall u, In u info -> ti_cluster u = ti_cluster ti -> u = ti \/ (ti_prio ti < ti_prio u)%N) /\
  (forall i k u, i <> 0%nat -> nth_error info i = Some u -> x_comp E i k <= x_rel E i k + Z.of_N (ti_response u)) /\
  solved (prio_fifo_lp rp info ti) opt /\ Z.of_N (ti_cost ti) + lrint opt <= Z.of_N (ti_response ti) /\ (ti_response ti <= ti_period ti)%N /\
  x_rel E 0 0 + Z.of_N (ti_response ti) < x_comp E 0 0.
Proof.
  exists arr_prio, arr_info, (table_exec arr_table), arr_task, 1%Q.
  split; [split; [reflexivity|]; intros t [<-|[<-|[<-|[]]]]; (split; [reflexivity|cbn; repeat constructor; intros []])|].
  split; [intros t u [<-|[<-|[<-|[]]]] [<-|[<-|[<-|[]]]]; cbn; intros; try reflexivity; discriminate|].
  split; [apply table_ok_sound; vm_compute; reflexivity|]. split; [apply table_priority; vm_compute; reflexivity|]. split; [apply table_fifo; vm_compute; reflexivity|].
  split; [intros c q; exists (if Nat.eqb c 0 then 2%N else 1%N); intros t [[<-|[<-|[<-|[]]]] [r [R _]]] <-; [destruct R|reflexivity|reflexivity]|].
  split; [reflexivity|]. split; [intros u [<-|[<-|[<-|[]]]]; cbn; intros; first [left; reflexivity|right; reflexivity|discriminate]|].
  split; [intros i k u NE H; destruct i as [|[|[|i]]]; [contradiction| | |destruct i; discriminate]; injection H as <-; apply table_on_time; vm_compute; first [reflexivity|discriminate]|].
  split; [apply solved_small; [vm_compute; reflexivity|exact arr_opt]|]. split; [vm_compute; discriminate|]. split; [vm_compute; discriminate|]. vm_compute. reflexivity.
Qed.
Print Assumptions C54_arrival_unsafe.
