(** LP-based blocking bounds for spin locks: MSRP (C50) and baseline (C51). *)
From Coq Require Import NArith ZArith QArith List Bool Lia Lqa.
From Verif Require Import ModelLocking SpecLocking ModelLP ModelLPSpin SpecLP SpecSpinFP ProofLP ProofLPSpin ProofSpinCount ProofSpinFP ProofSpinRTA.
Import ListNotations.
Open Scope Z_scope.

Lemma solved_optimum lp opt : solved lp opt -> optimum lp opt.
Proof. intros [vs [H1 [H2 H3]]]. apply (optimum_indexed vs lp opt H1 H2). exact H3. Qed.

(** ** A case: two processors, a resource shared by all tasks, and a schedule in
    which task 0 is delayed by the lower-priority task 2 and by spinning. *)
Definition ex_info : list taskinfo :=
  [TI 0 0 100 100 5 0 2 [Req 0 1 1 false]; TI 1 0 100 100 5 1 2 [Req 0 1 1 false]; TI 2 1 100 100 6 0 3 [Req 0 1 2 false]].
Definition ex_rel (i k : nat) : Z := 100 * Z.of_nat k + (if Nat.eqb i 0 then 1 else 0).
Definition ex_comp (i k : nat) : Z :=
  match k with O => match i with O => 5 | S O => 3 | S (S O) => 6 | _ => 0 end | _ => ex_rel i k end.
Definition ex_tr (r : nat) : list creq :=
  match r with O => [CReq 2 0 0 0 0 2; CReq 1 0 1 1 2 3; CReq 0 0 0 2 3 4] | _ => [] end.
Definition ex_sched (c : nat) (t : Z) : option (nat * nat) :=
  match c with
  | O => if (0 <=? t) && (t <? 2) then Some (2%nat, 0%nat) else if (2 <=? t) && (t <? 5) then Some (0%nat, 0%nat) else if t =? 5 then Some (2%nat, 0%nat) else None
  | S O => if (0 <=? t) && (t <? 3) then Some (1%nat, 0%nat) else None
  | _ => None
  end.
Definition ex_exec : execution := Exec ex_rel ex_comp ex_tr ex_sched.
Definition ex_bound (i : nat) : Z := match i with O => 3 | S O => 2 | _ => 1 end.

Lemma ex_tr_cases r c : In c (ex_tr r) -> r = O /\ (c = CReq 2 0 0 0 0 2 \/ c = CReq 1 0 1 1 2 3 \/ c = CReq 0 0 0 2 3 4).
Proof. destruct r; [|intros []]. intros [H|[H|[H|[]]]]; auto. Qed.

Lemma ex_global : global_resource ex_info 0.
Proof.
  exists (TI 0 0 100 100 5 0 2 [Req 0 1 1 false]), (TI 1 0 100 100 5 1 2 [Req 0 1 1 false]).
  split; [split; [left; reflexivity|exists (Req 0 1 1 false); split; [left; reflexivity|reflexivity]]|].
  split; [split; [right; left; reflexivity|exists (Req 0 1 1 false); split; [left; reflexivity|reflexivity]]|discriminate].
Qed.

Lemma ex_sched_cases c t j : ex_sched c t = Some j ->
  (c = 0%nat /\ j = (2%nat, 0%nat) /\ (0 <= t < 2 \/ t = 5)) \/ (c = 0%nat /\ j = (0%nat, 0%nat) /\ 2 <= t < 5) \/ (c = 1%nat /\ j = (1%nat, 0%nat) /\ 0 <= t < 3).
Proof.
  destruct c as [|[|c]]; cbn [ex_sched]; [| |discriminate].
  - destruct (Z.leb_spec 0 t), (Z.ltb_spec t 2), (Z.leb_spec 2 t), (Z.ltb_spec t 5), (Z.eqb_spec t 5); cbn [andb]; intros H'; try discriminate; injection H' as <-; first [left; repeat split; lia|right; left; repeat split; lia|right; right; repeat split; lia].
  - destruct (Z.leb_spec 0 t), (Z.ltb_spec t 3); cbn [andb]; intros H'; try discriminate; injection H' as <-; first [left; repeat split; lia|right; left; repeat split; lia|right; right; repeat split; lia].
Qed.

Lemma ex_nth i t : nth_error ex_info i = Some t -> (i = 0 \/ i = 1 \/ i = 2)%nat.
Proof. destruct i as [|[|[|i]]]; [lia|lia|lia|]. destruct i; discriminate. Qed.

Lemma ex_pending i k t u : nth_error ex_info i = Some u -> pending ex_exec (i, k) t -> k = O /\ ((i = 0%nat /\ 1 <= t < 5) \/ (i = 1%nat /\ 0 <= t < 3) \/ (i = 2%nat /\ 0 <= t < 6)).
Proof.
  intros H P. unfold pending in P; cbn [fst snd x_rel x_comp ex_exec] in P. destruct k as [|k]; [|cbn [ex_comp] in P; lia]. split; [reflexivity|].
  apply ex_nth in H. destruct H as [->|[->| ->]]; cbn in P; lia.
Qed.

Lemma ex_spin : spin_execution ex_info ex_exec.
Proof.
  assert (Z5 : forall t, 0 <= t < 6 -> t = 0 \/ t = 1 \/ t = 2 \/ t = 3 \/ t = 4 \/ t = 5) by (intros; lia).
  constructor; cbn [x_rel x_comp x_tr x_sched ex_exec].
  - intros i k t H. apply ex_nth in H as H'. destruct H' as [->|[->| ->]]; cbn in H; injection H as <-; unfold ex_rel; cbn [Nat.eqb ti_period]; lia.
  - intros i k t u H P. destruct (ex_pending i k u t H P) as [-> C]. destruct C as [[-> C]|[[-> C]|[-> C]]]; cbn in H; injection H as <-; unfold ex_rel; cbn [Nat.eqb ti_cost];
      (destruct (Z5 u ltac:(lia)) as [->|[->|[->|[->|[->| ->]]]]]; try lia; vm_compute; reflexivity).
  - intros r c H. apply ex_tr_cases in H. destruct H as [_ [->|[->| ->]]]; cbn; lia.
  - intros r c H. apply ex_tr_cases in H. destruct H as [_ [->|[->| ->]]]; cbn; lia.
  - intros r c H. apply ex_tr_cases in H. destruct H as [-> [->|[->| ->]]].
    + exists (TI 2 1 100 100 6 0 3 [Req 0 1 2 false]), (Req 0 1 2 false). repeat split; [left; reflexivity|vm_compute; discriminate].
    + exists (TI 1 0 100 100 5 1 2 [Req 0 1 1 false]), (Req 0 1 1 false). repeat split; [left; reflexivity|vm_compute; discriminate].
    + exists (TI 0 0 100 100 5 0 2 [Req 0 1 1 false]), (Req 0 1 1 false). repeat split; [left; reflexivity|vm_compute; discriminate].
  - intros r i k t q H Q R. destruct r as [|r]; [|cbn; lia]. apply ex_nth in H as H'. destruct H' as [->|[->| ->]]; cbn in H; injection H as <-; (destruct Q as [<-|[]]); (destruct k as [|k]; vm_compute; discriminate).
  - intros r. destruct r as [|r]; cbn; repeat (apply FOP_cons || apply FOP_nil || apply Forall_cons || apply Forall_nil); discriminate.
  - intros r s a b N A B. apply ex_tr_cases in A, B. lia.
  - intros r c H. apply ex_tr_cases in H. destruct H as [_ [->|[->| ->]]]; vm_compute; reflexivity.
  - intros r c t H _ T. apply ex_tr_cases in H. destruct H as [_ [->|[->| ->]]]; cbn in T; (destruct (Z5 t ltac:(lia)) as [->|[->|[->|[->|[->| ->]]]]]; try lia; vm_compute; reflexivity).
  - intros r _. destruct r as [|r]; cbn; repeat (apply FOP_cons || apply FOP_nil || apply Forall_cons || apply Forall_nil); cbn; lia.
  - intros r b t H _ T. apply ex_tr_cases in H. destruct H as [-> [->|[->| ->]]]; cbn in T.
    + lia.
    + exists (CReq 2 0 0 0 0 2). split; [left; reflexivity|cbn; lia].
    + exists (CReq 1 0 1 1 2 3). split; [right; left; reflexivity|cbn; lia].
  - intros r c H G. apply ex_tr_cases in H. destruct H as [-> _]. destruct (G ex_global).
  - intros c t j H. apply ex_sched_cases in H. destruct H as [[-> [-> T]]|[[-> [-> T]]|[-> [-> T]]]]; (split; [unfold pending; cbn; lia|eexists; split; [reflexivity|reflexivity]]).
  - intros [i k] u t H P. cbn [fst snd] in H. destruct (ex_pending i k t u H P) as [-> C].
    assert (SELF : forall c, ti_cluster u = c -> ex_sched c t = Some (i, 0%nat) -> exists j', ex_sched (ti_cluster u) t = Some j' /\
      forall p, has_priority ex_exec ex_info (i, 0%nat) t p -> exists p', has_priority ex_exec ex_info j' t p' /\ (p' <= p)%N).
    { intros c <- S. exists (i, 0%nat). split; [exact S|]. intros p HP. exists p. split; [exact HP|lia]. }
    destruct C as [[-> C]|[[-> C]|[-> C]]]; cbn in H; injection H as <-; cbn [ti_cluster] in *.
    + destruct (Z.eq_dec t 1) as [->|N].
      * exists (2%nat, 0%nat). split; [reflexivity|]. intros p _. exists 0%N. split; [|lia]. right. exists 0%nat, (CReq 2 0 0 0 0 2). split; [left; reflexivity|]. split; [reflexivity|]. split; [cbn; lia|]. left. split; [exact ex_global|reflexivity].
      * apply (SELF 0%nat eq_refl). destruct (Z5 t ltac:(lia)) as [->|[->|[->|[->|[->| ->]]]]]; try lia; reflexivity.
    + apply (SELF 1%nat eq_refl). destruct (Z5 t ltac:(lia)) as [->|[->|[->|[->|[->| ->]]]]]; try lia; reflexivity.
    + assert (2 <= t < 5 \/ (0 <= t < 2 \/ t = 5)) as [X|X] by lia.
      * exists (0%nat, 0%nat). split; [destruct (Z5 t ltac:(lia)) as [->|[->|[->|[->|[->| ->]]]]]; try lia; reflexivity|]. intros p _. exists 0%N. split; [|lia]. left. eexists. split; reflexivity.
      * apply (SELF 0%nat eq_refl). destruct (Z5 t ltac:(lia)) as [->|[->|[->|[->|[->| ->]]]]]; try lia; reflexivity.
Qed.

Lemma ex_fifo : fifo_order ex_info ex_exec.
Proof.
  intros r a b _ A B. cbn [x_tr ex_exec] in A, B. apply ex_tr_cases in A, B. destruct A as [_ [->|[->| ->]]], B as [_ [->|[->| ->]]]; cbn; lia.
Qed.

Lemma ex_wf : wf_info ex_info.
Proof. split; [reflexivity|]. intros t [<-|[<-|[<-|[]]]]; (split; [reflexivity|cbn; constructor; [intros []|constructor]]). Qed.

Lemma ex_distinct : distinct_priorities ex_info.
Proof. intros t u [<-|[<-|[<-|[]]]] [<-|[<-|[<-|[]]]]; cbn; intros; try reflexivity; discriminate. Qed.

Lemma ex_ok : response_times_ok ex_info ex_bound.
Proof.
  intros i t H. apply ex_nth in H as H'. destruct H' as [->|[->| ->]]; cbn in H; injection H as <-; (split; [vm_compute; discriminate|split; [reflexivity|vm_compute; discriminate]]).
Qed.

Ltac optimum_tac range point :=
  match goal with |- optimum ?lp ?o =>
    let l := eval vm_compute in lp in
    replace lp with l by (vm_compute; reflexivity); split;
    [ exists point; split; [constructor; [exact range
        |intros v Hv; repeat (destruct Hv as [<-|Hv]; [vm_compute; auto|]); destruct Hv
        |intros e b He; repeat (destruct He as [He|He]; [injection He as <- <-; vm_compute; reflexivity|]); destruct He
        |intros e b He; repeat (destruct He as [He|He]; [injection He as <- <-; vm_compute; discriminate|]); destruct He]
      |vm_compute; reflexivity]
    | let x := fresh "x" in let F1 := fresh "F" in let F2 := fresh "F" in let F3 := fresh "F" in let F4 := fresh "F" in
      intros x [F1 F2 F3 F4];
      assert (FA : Forall (fun c => (evaluate x (fst c) <= snd c)%Q) (lp_ineqs l)) by (apply Forall_forall; intros [e b] He; exact (F4 e b He));
      assert (FE : Forall (fun c => (evaluate x (fst c) == snd c)%Q) (lp_eqs l)) by (apply Forall_forall; intros [e b] He; exact (F3 e b He));
      clear F2 F3 F4; cbn [lp_ineqs lp_eqs lp_obj] in *;
      repeat match goal with H : Forall _ (_ :: _) |- _ => apply Forall_cons_iff in H; destruct H end;
      repeat match goal with H : Forall _ [] |- _ => clear H end;
      repeat match goal with H : context [x ?v] |- _ => lazymatch goal with H' : (0 <= x v <= 1)%Q |- _ => fail | _ => pose proof (F1 v) end end;
      cbn [evaluate fold_right fst snd] in *; lra ]
  end.

Definition ex_point (who : nat) (v : var) : Q :=
  if match v with
     | Var 1 0 0 BLOCKING_DIRECT => Nat.eqb who 0 || Nat.eqb who 2
     | Var 2 0 0 BLOCKING_DIRECT => Nat.eqb who 1
     | Var 2 0 0 BLOCKING_ARRIVAL => Nat.eqb who 0
     | Var 0 0 0 BLOCKING_PREEMPT => Nat.eqb who 0
     | _ => false
     end then 1%Q else 0%Q.

Lemma ex_point_range who v : (0 <= ex_point who v <= 1)%Q.
Proof. unfold ex_point. destruct (match v with Var _ _ _ _ => _ end); split; discriminate. Qed.

Lemma ex_opt0 : optimum (msrp_lp ex_info (TI 0 0 100 100 5 0 2 [Req 0 1 1 false])) 3.
Proof. optimum_tac (ex_point_range 0) (ex_point 0). Qed.
Lemma ex_opt1 : optimum (msrp_lp ex_info (TI 1 0 100 100 5 1 2 [Req 0 1 1 false])) 2.
Proof. optimum_tac (ex_point_range 1) (ex_point 1). Qed.
Lemma ex_opt2 : optimum (msrp_lp ex_info (TI 2 1 100 100 6 0 3 [Req 0 1 2 false])) 1.
Proof. optimum_tac (ex_point_range 2) (ex_point 2). Qed.
Lemma ex_base0 : optimum (baseline_lp ex_info (TI 0 0 100 100 5 0 2 [Req 0 1 1 false])) 3.
Proof. optimum_tac (ex_point_range 0) (ex_point 0). Qed.
Definition ex_point3 (v : var) : Q := if match v with Var 0 0 0 BLOCKING_DIRECT | Var 2 0 0 BLOCKING_DIRECT => true | _ => false end then 1%Q else 0%Q.
Lemma ex_point3_range v : (0 <= ex_point3 v <= 1)%Q.
Proof. unfold ex_point3. destruct (match v with Var _ _ _ _ => _ end); split; discriminate. Qed.
Lemma ex_base1 : optimum (baseline_lp ex_info (TI 1 0 100 100 5 1 2 [Req 0 1 1 false])) 3.
Proof. optimum_tac ex_point3_range ex_point3. Qed.
Lemma ex_base2 : optimum (baseline_lp ex_info (TI 2 1 100 100 6 0 3 [Req 0 1 2 false])) 1.
Proof. optimum_tac (ex_point_range 2) (ex_point 2). Qed.
Definition ex_base (i : nat) : Z := match i with O => 3 | S O => 3 | _ => 1 end.

Definition in_rangeb (v : var) : bool := ((N.of_nat (v_task v) <? 2 ^ 30) && (N.of_nat (v_res v) <? 2 ^ 10) && (N.of_nat (v_req v) <? 2 ^ 20))%N.
Lemma solved_small lp opt : forallb in_rangeb (lp_vars lp) = true -> optimum lp opt -> solved lp opt.
Proof.
  intros H O. assert (R : forall v, In v (lp_vars lp) -> in_range v).
  { rewrite forallb_forall in H. intros v Hv. specialize (H v Hv). unfold in_rangeb in H. rewrite !andb_true_iff, !N.ltb_lt in H. unfold in_range. tauto. }
  exists (lp_vars lp). split; [auto|]. split; [exact R|]. apply optimum_indexed; auto.
Qed.

Lemma ex_solved i t : nth_error ex_info i = Some t -> exists opt, solved (msrp_lp ex_info t) opt /\ ex_bound i = lrint opt.
Proof.
  intros H. apply ex_nth in H as H'. destruct H' as [->|[->| ->]]; cbn in H; injection H as <-.
  - exists 3%Q. split; [apply solved_small; [vm_compute; reflexivity|exact ex_opt0]|reflexivity].
  - exists 2%Q. split; [apply solved_small; [vm_compute; reflexivity|exact ex_opt1]|reflexivity].
  - exists 1%Q. split; [apply solved_small; [vm_compute; reflexivity|exact ex_opt2]|reflexivity].
Qed.

Lemma ex_solved_base i t : nth_error ex_info i = Some t -> exists opt, solved (baseline_lp ex_info t) opt /\ ex_base i = lrint opt.
Proof.
  intros H. apply ex_nth in H as H'. destruct H' as [->|[->| ->]]; cbn in H; injection H as <-.
  - exists 3%Q. split; [apply solved_small; [vm_compute; reflexivity|exact ex_base0]|reflexivity].
  - exists 3%Q. split; [apply solved_small; [vm_compute; reflexivity|exact ex_base1]|reflexivity].
  - exists 1%Q. split; [apply solved_small; [vm_compute; reflexivity|exact ex_base2]|reflexivity].
Qed.

(** ** MSRP *)

(** In a busy window that starts at a quiet time and is not longer than the
    response-time bound, the time in which the processor neither idles nor works on
    jobs of the task's priority or higher is at most the rounded optimum. *)
Theorem C50_window_safe : forall info i ti E ts n d opt, wf_info info -> distinct_priorities info -> spin_execution info E -> fifo_order info E ->
  nth_error info i = Some ti -> Z.of_nat n <= Z.of_N (ti_response ti) -> (ti_response ti <= ti_period ti)%N ->
  quiet info E (ti_cluster ti) (ti_prio ti) ts -> busy info E (ti_cluster ti) (ti_prio ti) ts (ts + Z.of_nat n) ->
  on_time info E d -> ts + Z.of_nat n <= d -> solved (msrp_lp info ti) opt ->
  Z.of_nat (count (lost info E (ti_cluster ti) (ti_prio ti)) ts n) <= lrint opt.
Proof. intros info i ti E ts n d opt WF DP SE FI HI HN HR HQ HB HO HD S. apply (msrp_blocking info i ti E ts n d opt); try assumption. apply solved_optimum. exact S. Qed.
Print Assumptions C50_window_safe.
(** from 1 to 5 task 0 is pending; it loses instants 1 and 2 *)
Example C50_window_case :
  quiet ex_info ex_exec 0 0 1 /\ busy ex_info ex_exec 0 0 1 (1 + Z.of_nat 4) /\ count (lost ex_info ex_exec 0 0) 1 4 = 2%nat.
Proof.
  split; [|split; [|vm_compute; reflexivity]].
  - intros i k u H C P R. apply ex_nth in H as H'. destruct H' as [->|[->| ->]]; cbn in H; injection H as <-; cbn in C, P; try discriminate; [|destruct (P eq_refl)].
    cbn [x_rel x_comp ex_exec] in *. unfold ex_rel in R. cbn [Nat.eqb] in R. lia.
  - intros t T. exists 0%nat, 0%nat. eexists. split; [reflexivity|]. repeat split; [vm_compute; discriminate|cbn; lia|cbn; lia].
Qed.

(** With these blocking terms, solutions of the response-time equations are safe. *)
Theorem C50_response_times_safe : forall info E B, wf_info info -> distinct_priorities info -> spin_execution info E -> fifo_order info E ->
  (forall i ti, nth_error info i = Some ti -> exists opt, solved (msrp_lp info ti) opt /\ B i = lrint opt) -> response_times_ok info B ->
  forall i k ti, nth_error info i = Some ti -> x_comp E i k <= x_rel E i k + Z.of_N (ti_response ti).
Proof.
  intros info E B WF DP SE FI HB OK. apply (rta_safe info E B WF DP SE OK). intros i ti ts n d HI HN HQ HU HO HD. destruct (HB i ti HI) as [opt [S ->]].
  apply (C50_window_safe info i ti E ts n d opt); try assumption. apply (OK i ti HI).
Qed.
Print Assumptions C50_response_times_safe.
Example C50_case : wf_info ex_info /\ distinct_priorities ex_info /\ spin_execution ex_info ex_exec /\ fifo_order ex_info ex_exec /\
  (forall i ti, nth_error ex_info i = Some ti -> exists opt, solved (msrp_lp ex_info ti) opt /\ ex_bound i = lrint opt) /\ response_times_ok ex_info ex_bound /\
  x_comp ex_exec 2 0 = x_rel ex_exec 2 0 + 6.
Proof. exact (conj ex_wf (conj ex_distinct (conj ex_spin (conj ex_fifo (conj ex_solved (conj ex_ok eq_refl)))))). Qed.

(** The program always has a solution. *)
Theorem C50_feasible : forall info ti, feasible (msrp_lp info ti) (fun _ => 0%Q) /\ feasible (baseline_lp info ti) (fun _ => 0%Q).
Proof.
  assert (Z0 : forall ti b rs, (isum (fun _ => 0%Q) ti b rs == 0)%Q) by (intros; unfold isum; apply qsum_zero; intros r _; apply qsum_zero; intros v _; reflexivity).
  intros info ti. assert (C : common_ok info ti (fun _ => 0%Q)).
  { constructor; try (intros; reflexivity).
    - intros. discriminate.
    - rewrite qsum_zero by (intros; reflexivity). discriminate.
    - intros. left. reflexivity.
    - intros. rewrite Z0. apply Qle_refl.
    - intros. apply Z0.
    - intros. rewrite Z0. apply Qle_refl.
    - intros. rewrite Z0. apply nq_nonneg. }
  split; [apply msrp_feasible; [exact C| |intros; split; discriminate]|apply baseline_feasible; [exact C|intros; split; discriminate]].
  constructor; intros; rewrite Z0; [apply nq_nonneg|apply Qle_refl].
Qed.
Print Assumptions C50_feasible.

(** ** Baseline *)

Theorem C51_window_safe : forall info i ti E ts n d opt, wf_info info -> distinct_priorities info -> spin_execution info E ->
  nth_error info i = Some ti -> Z.of_nat n <= Z.of_N (ti_response ti) -> (ti_response ti <= ti_period ti)%N ->
  quiet info E (ti_cluster ti) (ti_prio ti) ts -> busy info E (ti_cluster ti) (ti_prio ti) ts (ts + Z.of_nat n) ->
  on_time info E d -> ts + Z.of_nat n <= d -> solved (baseline_lp info ti) opt ->
  Z.of_nat (count (lost info E (ti_cluster ti) (ti_prio ti)) ts n) <= lrint opt.
Proof. intros info i ti E ts n d opt WF DP SE HI HN HR HQ HB HO HD S. apply (baseline_blocking info i ti E ts n d opt); try assumption. apply solved_optimum. exact S. Qed.
Print Assumptions C51_window_safe.

Theorem C51_response_times_safe : forall info E B, wf_info info -> distinct_priorities info -> spin_execution info E ->
  (forall i ti, nth_error info i = Some ti -> exists opt, solved (baseline_lp info ti) opt /\ B i = lrint opt) -> response_times_ok info B ->
  forall i k ti, nth_error info i = Some ti -> x_comp E i k <= x_rel E i k + Z.of_N (ti_response ti).
Proof.
  intros info E B WF DP SE HB OK. apply (rta_safe info E B WF DP SE OK). intros i ti ts n d HI HN HQ HU HO HD. destruct (HB i ti HI) as [opt [S ->]].
  apply (C51_window_safe info i ti E ts n d opt); try assumption. apply (OK i ti HI).
Qed.
Print Assumptions C51_response_times_safe.
Example C51_case :
  (forall i ti, nth_error ex_info i = Some ti -> exists opt, solved (baseline_lp ex_info ti) opt /\ ex_base i = lrint opt) /\ response_times_ok ex_info ex_base.
Proof.
  split; [exact ex_solved_base|]. intros i t H. apply ex_nth in H as H'.
  destruct H' as [->|[->| ->]]; cbn in H; injection H as <-; (split; [vm_compute; discriminate|split; [reflexivity|vm_compute; discriminate]]).
Qed.

(** Knowing the queue order never hurts. *)
Theorem C51_not_smaller : forall info ti a b, optimum (msrp_lp info ti) a -> optimum (baseline_lp info ti) b -> (a <= b)%Q.
Proof.
  intros info ti a b [[x [F V]] _] [_ U]. rewrite <- V, msrp_objective, <- baseline_objective. apply U. apply msrp_baseline_feasible. exact F.
Qed.
Print Assumptions C51_not_smaller.
Example C51_not_smaller_case :
  optimum (msrp_lp ex_info (TI 1 0 100 100 5 1 2 [Req 0 1 1 false])) 2 /\ optimum (baseline_lp ex_info (TI 1 0 100 100 5 1 2 [Req 0 1 1 false])) 3.
Proof. exact (conj ex_opt1 ex_base1). Qed.
