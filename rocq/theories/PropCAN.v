(** C35: the CAN response-time analysis.  C41: robust priority assignment. *)
From Coq Require Import ZArith List Bool Lia Arith Permutation.
From Verif Require Import Base ModelCAN SpecCAN ProofCAN ProofCANPrio.
Import ListNotations.
Open Scope Z_scope.

(** three messages of 8 bytes (132 bits) on a bus with a unit bit time *)
Definition ex_bus : canbus := Bus 1 3 31.
Definition ex_a : cmsg := CMsg 0 1 8 337 337 0.
Definition ex_b : cmsg := CMsg 1 2 8 473 473 0.
Definition ex_c : cmsg := CMsg 2 3 8 473 420 0.
Definition ex_ms : list cmsg := [ex_a; ex_b; ex_c].

Lemma ex_wf_bus : wf_bus ex_bus.
Proof. repeat split; cbn; lia. Qed.
Lemma ex_wf_msg m : In m ex_ms -> wf_msg m.
Proof. intros [<-|[<-|[<-|[]]]]; repeat split; cbn; lia. Qed.

(** ** C35: the computation *)

(** The iteration ends, and giving it more steps does not change the result. *)
Theorem C35_terminates : forall b ms m faults fuel, wf_bus b -> (forall x, In x ms -> wf_msg x) -> 0 <= faults ->
  (wctt_fuel b m <= fuel)%nat -> get_wctt fuel b ms m faults = Some (wctt b ms m faults).
Proof. intros b ms m faults fuel WB WM HF L. apply (wctt_ok b ms m faults WB WM HF fuel L). Qed.
Print Assumptions C35_terminates.

(** If the result meets the deadline, it is the least solution of the recurrence;
    otherwise no solution meets the deadline. *)
Theorem C35_least_fixpoint : forall b ms m faults, wf_bus b -> (forall x, In x ms -> wf_msg x) -> 0 <= faults ->
  let w := wctt b ms m faults in
  (w + cm_jitter m <= cm_deadline m -> recurrence b ms m faults w = w /\ transfer_delay b m <= w) /\
  (forall x, transfer_delay b m <= x -> recurrence b ms m faults x <= x -> w <= x) /\
  (cm_deadline m < w + cm_jitter m -> forall x, transfer_delay b m <= x -> recurrence b ms m faults x = x -> cm_deadline m < x + cm_jitter m).
Proof.
  intros b ms m faults WB WM HF w. destruct (wctt_ok b ms m faults WB WM HF _ (le_n _)) as [_ [W1 [W2 W3]]]. fold w in W1, W2, W3. split; [|split].
  - intros H. split; [apply W3; exact H|lia].
  - exact W2.
  - intros H x X1 X2. specialize (W2 x X1 ltac:(lia)). lia.
Qed.
Print Assumptions C35_least_fixpoint.

Example C35_least_fixpoint_example : map (fun f => wctt ex_bus ex_ms ex_c f) [0; 1] = [405; 568] /\ recurrence ex_bus ex_ms ex_c 0 405 = 405 /\
  wctt ex_bus ex_ms ex_a 0 = 267 /\ br_is_schedulable ex_bus ex_ms ex_a 0 = true /\ br_is_schedulable ex_bus ex_ms ex_c 1 = false.
Proof. vm_compute. auto. Qed.

(** More faults never help: if a number of faults is tolerated, so is every smaller
    one, with a smaller bound. *)
Theorem C35_monotone : forall b ms m f f', wf_bus b -> (forall x, In x ms -> wf_msg x) -> 0 <= f <= f' ->
  wctt b ms m f' + cm_jitter m <= cm_deadline m -> wctt b ms m f <= wctt b ms m f'.
Proof. exact wctt_monotone. Qed.
Print Assumptions C35_monotone.

(** is_schedulable, which extends a vector entry by entry, decides exactly whether the
    bound for this number of faults meets the deadline. *)
Theorem C35_is_schedulable : forall b ms m n, wf_bus b -> (forall x, In x ms -> wf_msg x) ->
  (br_is_schedulable b ms m n = true <-> exists w, transfer_delay b m <= w /\ recurrence b ms m (Z.of_nat n) w = w /\ w + cm_jitter m <= cm_deadline m).
Proof.
  intros b ms m n WB WM. rewrite (br_schedulable_iff b ms m n WB WM). destruct (wctt_ok b ms m (Z.of_nat n) WB WM ltac:(lia) _ (le_n _)) as [_ [W1 [W2 W3]]]. split.
  - intros H. exists (wctt b ms m (Z.of_nat n)). split; [lia|]. split; [apply W3; exact H|exact H].
  - intros [w [X1 [X2 X3]]]. specialize (W2 w X1 ltac:(lia)). lia.
Qed.
Print Assumptions C35_is_schedulable.

(** The cached variant returns the same values, whatever the order of queries. *)
Theorem C35_cache : forall b ms m queries n,
  let vec := fold_left (fun v q => fst (wctt_fast b ms m q v)) queries [] in
  snd (wctt_fast b ms m n vec) = wctt b ms m (Z.of_nat n).
Proof.
  intros b ms m queries n vec. apply wctt_fast_ok. unfold vec. assert (G : forall qs v, cached b ms m v -> cached b ms m (fold_left (fun v q => fst (wctt_fast b ms m q v)) qs v)).
  { induction qs as [|q qs IH]; intros v H; [exact H|]. cbn [fold_left]. apply IH. apply wctt_fast_ok. exact H. }
  apply G. intros i Hi. cbn in Hi. lia.
Qed.
Print Assumptions C35_cache.

Example C35_cache_example : fold_left (fun v q => fst (wctt_fast ex_bus ex_ms ex_a q v)) [1%nat; 0%nat] [] = [267; 430].
Proof. vm_compute. reflexivity. Qed.

(** ** C35: safety *)

(** On a priority-driven bus with at most [faults] transmission faults while it waits,
    the first instance of a message in a busy period is transmitted within the bound. *)
Theorem C35_first_instance_safe : forall b ms arrival queued horizon evs i k m t0 faults,
  wf_bus b -> (forall x, In x ms -> wf_msg x) -> NoDup (map cm_id ms) ->
  sporadic_msgs ms arrival queued -> can_execution b ms queued horizon evs ->
  nth_error ms i = Some m -> first_in_busy_period ms queued evs i k m t0 ->
  0 <= faults ->
  let w := wctt b ms m faults in
  w + cm_jitter m <= cm_deadline m -> t0 + w <= horizon ->
  Z.of_nat (length (faults_in b evs t0 (t0 + w))) <= faults ->
  transmitted evs i k (queued i k + w).
Proof.
  intros b ms arrival queued horizon evs i k m t0 faults WB WM IDS SP EX Hi FIRST HF w ACC HOR FLT.
  destruct (transmitted_dec evs i k (t0 + w)) as [TR|NT].
  - destruct TR as [e [H1 [H2 [H3 [H4 H5]]]]]. destruct FIRST as [F1 _]. exists e. repeat split; auto. lia.
  - exfalso. exact (contradiction b ms arrival queued horizon evs WB WM IDS SP EX i k m t0 faults Hi FIRST HF ACC HOR FLT NT).
Qed.
Print Assumptions C35_first_instance_safe.

(** the synchronous periodic arrivals of the three messages on the fault-free bus *)
Definition ex_arr (i k : nat) : Z := Z.of_nat k * match i with O => 337 | _ => 473 end.
Definition ex_evs : list event :=
  [Event 0 0 0 132 true; Event 1 0 135 267 true; Event 2 0 270 402 true; Event 0 1 405 537 true; Event 1 1 540 672 true; Event 0 2 675 807 true; Event 2 1 810 942 true].

Lemma ex_sporadic : sporadic_msgs ex_ms ex_arr ex_arr.
Proof. intros i m H k. unfold ex_arr. destruct i as [|[|[|i]]]; cbn in H; inversion H; subst; cbn [cm_period cm_jitter ex_a ex_b ex_c]; [lia|lia|lia|destruct i; discriminate]. Qed.

Lemma ex_trans e t : In e ex_evs -> ev_end e <= t -> transmitted ex_evs (ev_msg e) (ev_inst e) t.
Proof. intros H L. exists e. repeat split; auto. repeat (destruct H as [<-|H]; [reflexivity|]). destruct H. Qed.

Lemma ex_not_trans i k t : (forall e, In e ex_evs -> ev_msg e = i -> ev_inst e = k -> t < ev_end e) -> ~ transmitted ex_evs i k t.
Proof. intros H [e [E1 [E2 [E3 [E4 E5]]]]]. specialize (H e E1 E2 E3). lia. Qed.

Lemma ex_execution : can_execution ex_bus ex_ms ex_arr 945 ex_evs.
Proof.
  constructor.
  - intros e H. repeat (destruct H as [<-|H]; [cbn; lia|]). destruct H.
  - intros e m H Hm. repeat (destruct H as [<-|H]; [cbn in Hm; inversion Hm; subst; cbn; lia|]). destruct H.
  - unfold ex_evs. repeat (apply FOP_cons; [repeat (apply Forall_cons; [cbn; intros; congruence|]); apply Forall_nil|]). apply FOP_nil.
  - unfold ex_evs. repeat (apply FOP_cons; [repeat (apply Forall_cons; [unfold ev_free; cbn; lia|]); apply Forall_nil|]). apply FOP_nil.
  - intros e m H Hm. split.
    + split.
      * repeat (destruct H as [<-|H]; [unfold ex_arr; cbn; lia|]). destruct H.
      * repeat (destruct H as [<-|H]; [apply ex_not_trans; intros f Hf; repeat (destruct Hf as [<-|Hf]; [cbn; intros; lia|]); destruct Hf|]). destruct H.
    + intros i k m' Hm' [Q NT].
      assert (B : (k < 3)%nat).
      { assert (ev_start e <= 810) by (repeat (destruct H as [<-|H]; [cbn; lia|]); destruct H). unfold ex_arr in Q. destruct i; lia. }
      assert (I3 : (i < 3)%nat) by (apply nth_error_Some_lt in Hm'; exact Hm').
      repeat (destruct H as [<-|H]; [cbn [ev_msg ev_inst ev_start] in *; cbn [nth_error ex_ms] in Hm; inversion Hm; subst m;
        destruct i as [|[|[|i]]]; try lia; cbn [nth_error ex_ms] in Hm'; inversion Hm'; subst m'; destruct k as [|[|[|k]]]; try lia; unfold ex_arr in Q;
        first [exfalso; lia | (split; [cbn; lia|intros; lia]) | exfalso; apply NT; (unshelve eapply (ex_trans (Event _ _ _ _ _))); [..|cbn; tauto|cbn; lia] | idtac]|]); try destruct H.
  - intros i k t Hi [Q _] Ht. assert (0 <= t) by (unfold ex_arr in Q; destruct i; lia).
    assert (EX : exists e, In e ex_evs /\ ev_start e <= t < ev_free ex_bus e); [|exact EX].
    destruct (Z.lt_ge_cases t 135) as [A|A]; [exists (Event 0 0 0 132 true); split; [cbn; tauto|unfold ev_free; cbn; lia]|].
    destruct (Z.lt_ge_cases t 270) as [A2|A2]; [exists (Event 1 0 135 267 true); split; [cbn; tauto|unfold ev_free; cbn; lia]|].
    destruct (Z.lt_ge_cases t 405) as [A3|A3]; [exists (Event 2 0 270 402 true); split; [cbn; tauto|unfold ev_free; cbn; lia]|].
    destruct (Z.lt_ge_cases t 540) as [A4|A4]; [exists (Event 0 1 405 537 true); split; [cbn; tauto|unfold ev_free; cbn; lia]|].
    destruct (Z.lt_ge_cases t 675) as [A5|A5]; [exists (Event 1 1 540 672 true); split; [cbn; tauto|unfold ev_free; cbn; lia]|].
    destruct (Z.lt_ge_cases t 810) as [A6|A6]; [exists (Event 0 2 675 807 true); split; [cbn; tauto|unfold ev_free; cbn; lia]|].
    exists (Event 2 1 810 942 true); split; [cbn; tauto|unfold ev_free; cbn; lia].
Qed.

Example C35_first_instance_safe_example : first_in_busy_period ex_ms ex_arr ex_evs 2 0 ex_c 0 /\ wctt ex_bus ex_ms ex_c 0 + cm_jitter ex_c <= cm_deadline ex_c /\
  faults_in ex_bus ex_evs 0 405 = [] /\ transmitted ex_evs 2 0 (ex_arr 2 0 + 405) /\ ~ transmitted ex_evs 2 0 401.
Proof.
  split; [|split; [vm_compute; discriminate|split; [reflexivity|split]]].
  - split; [cbn; lia|]. split; [|split].
    + intros i k m _ _ H. unfold ex_arr in H. destruct i; lia.
    + intros t Ht. unfold ex_arr in Ht. lia.
    + intros k Hk. lia.
  - exists (Event 2 0 270 402 true). repeat split; [cbn; tauto|cbn; lia].
  - apply ex_not_trans. intros f Hf. repeat (destruct Hf as [<-|Hf]; [cbn; intros; lia|]); destruct Hf.
Qed.

(** The bound does not hold for every instance: the analysis looks only at the first
    instance of a busy period.  Here all three messages are accepted, no fault
    occurs, and the second instance of the lowest-priority message is transmitted 469
    time units after it was queued, although the bound is 405 and the deadline 420.
    (This flaw of the original CAN analysis was found by Davis, Burns, Bril and Lukkien in
    2007.) *)
Theorem C35_refuted : exists b ms arrival queued horizon evs i k m,
  wf_bus b /\ (forall x, In x ms -> wf_msg x) /\ NoDup (map cm_id ms) /\
  sporadic_msgs ms arrival queued /\ can_execution b ms queued horizon evs /\
  forallb (fun x => br_is_schedulable b ms x 0) ms = true /\ nth_error ms i = Some m /\
  faults_in b evs 0 horizon = [] /\
  queued i k + cm_deadline m < horizon /\ ~ transmitted evs i k (queued i k + cm_deadline m).
Proof.
  exists ex_bus, ex_ms, ex_arr, ex_arr, 945, ex_evs, 2%nat, 1%nat, ex_c.
  split; [exact ex_wf_bus|]. split; [exact ex_wf_msg|]. split; [repeat constructor; cbn; intuition congruence|]. split; [exact ex_sporadic|]. split; [exact ex_execution|].
  split; [vm_compute; reflexivity|]. split; [reflexivity|]. split; [vm_compute; reflexivity|]. split; [cbn; lia|].
  apply ex_not_trans. intros f Hf. repeat (destruct Hf as [<-|Hf]; [cbn; intros; lia|]); destruct Hf.
Qed.
Print Assumptions C35_refuted.

(** ** C41 *)

(** If the assignment succeeds, only the priorities have changed, they are 1, ..., n
    in some order, and every message is schedulable. *)
Theorem C41_sound : forall b ms ms', wf_bus b -> 1 <= b_err b -> (forall m, In m ms -> wf_msg m) -> NoDup (map cm_name ms) ->
  set_priorities b ms = Some ms' ->
  exists g, ms' = with_ids g ms /\ Permutation (map cm_id ms') (map Z.of_nat (seq 1 (length ms))) /\
    forall m, In m ms -> tolerates b ms g m 0.
Proof.
  intros b ms ms' WB ER WM NN H. unfold set_priorities in H. change (map _ ms) with (with_ids (fun _ => -1) ms) in H.
  destruct (levels_sound b ms WB WM NN ER (length ms) (fun _ => -1) ms' (state_start ms)) as [g [G1 [[_ G2] G3]]]; [intros; lia|exact H|].
  exists g. split; [exact G1|]. split; [|exact G3]. subst ms'. unfold with_ids. rewrite map_map. cbn [repeat app] in G2. rewrite Nat.sub_0_r in G2. exact G2.
Qed.
Print Assumptions C41_sound.

(** Robustness: if some assignment of distinct priorities lets every message tolerate
    [f] retransmissions, then the computed assignment exists and does so, too. *)
Theorem C41_robust : forall b ms h f, wf_bus b -> 1 <= b_err b -> (forall m, In m ms -> wf_msg m) -> NoDup (map cm_name ms) ->
  distinct_ids h ms -> (forall m, In m ms -> tolerates b ms h m (Z.of_nat f)) ->
  exists g, set_priorities b ms = Some (with_ids g ms) /\ forall m, In m ms -> tolerates b ms g m (Z.of_nat f).
Proof.
  intros b ms h f WB ER WM NN DI OK. unfold set_priorities. change (map _ ms) with (with_ids (fun _ => -1) ms).
  apply (levels_optimal b ms WB WM NN ER h f DI OK (length ms) (fun _ => -1) (state_start ms)). intros; lia.
Qed.
Print Assumptions C41_robust.

(** It fails exactly if no assignment makes all messages schedulable. *)
Theorem C41_exact : forall b ms, wf_bus b -> 1 <= b_err b -> (forall m, In m ms -> wf_msg m) -> NoDup (map cm_name ms) ->
  (set_priorities b ms = None <-> ~ exists h, distinct_ids h ms /\ forall m, In m ms -> tolerates b ms h m 0).
Proof.
  intros b ms WB ER WM NN. split.
  - intros H [h [H1 H2]]. destruct (C41_robust b ms h 0 WB ER WM NN H1 H2) as [g [G _]]. congruence.
  - intros H. destruct (set_priorities b ms) as [ms'|] eqn:E; [|reflexivity]. exfalso. apply H. destruct (C41_sound b ms ms' WB ER WM NN E) as [g [G1 [G2 G3]]]. exists g. split; [|exact G3].
    unfold distinct_ids. subst ms'. unfold with_ids in G2. rewrite map_map in G2. apply (Permutation_NoDup (Permutation_sym G2)). apply FinFun.Injective_map_NoDup; [intros x y; apply Nat2Z.inj|apply seq_NoDup].
Qed.
Print Assumptions C41_exact.

(** The number of retransmissions found by the binary search is the largest tolerated
    one, and the assertion about the upper end of the search interval holds. *)
Theorem C41_tolerance : forall b ms g m a, wf_bus b -> 1 <= b_err b -> (forall m, In m ms -> wf_msg m) -> In m ms ->
  let h := fun x => if Nat.eqb x (cm_name m) then 0 else g x in
  br_is_schedulable b (with_ids h ms) (prio h m) (alpha_limit b m) = false /\
  (tolerance b (with_ids g ms) (prio g m) = Some a -> forall f : nat, tolerates b ms h m (Z.of_nat f) <-> (f <= a)%nat).
Proof.
  intros b ms g m a WB ER WM Hm h. split.
  - destruct (br_is_schedulable b (with_ids h ms) (prio h m) (alpha_limit b m)) eqn:E; [|reflexivity]. exfalso. apply (limit_fails b ms WB WM ER h m Hm). apply (sched_iff b ms WB WM h m _ Hm). exact E.
  - intros H. exact (tolerance_some b ms WB WM ER g m a Hm H).
Qed.
Print Assumptions C41_tolerance.

(** an urgent and a relaxed message: the urgent one must come first *)
Definition ex_prio : list cmsg := [CMsg 0 7 8 2000 2000 0; CMsg 1 7 1 600 400 0; CMsg 2 7 4 1500 900 10].

Example C41_example : option_map (map cm_id) (set_priorities ex_bus ex_prio) = Some [3; 1; 2] /\
  map (fun m => tolerance ex_bus (with_ids (fun _ => -1) ex_prio) (prio (fun _ => -1) m)) ex_prio = [Some 8%nat; Some 0%nat; Some 3%nat] /\
  set_priorities ex_bus (CMsg 3 7 8 300 200 0 :: CMsg 4 7 8 300 200 0 :: ex_prio) = None.
Proof. vm_compute. auto. Qed.

(** If the deadline and the error-frame size are Python integers, line 43 divides them with
    rounding down, and the assertion can fail for a schedulable message. *)
Theorem C41_integer_assertion_refuted : exists b ms m, wf_bus b /\ 1 <= b_err b /\ In m ms /\ wf_msg m /\
  br_is_schedulable b ms m 0 = true /\ br_is_schedulable b ms m (alpha_limit_int b m) = true.
Proof.
  exists (Bus 1 3 200), [CMsg 0 0 1 500 190 0], (CMsg 0 0 1 500 190 0). split; [repeat split; cbn; lia|]. split; [cbn; lia|]. split; [left; reflexivity|]. split; [repeat split; cbn; lia|]. vm_compute. auto.
Qed.
Print Assumptions C41_integer_assertion_refuted.
