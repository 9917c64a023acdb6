(** C61: the classic MSRP bounds under partitioned fixed priorities. *)
From Coq Require Import NArith ZArith List Bool Lia Arith Sorted.
From Verif Require Import Base ModelTasks ModelFP ModelLocking ModelMSRP ModelMSRPFP SpecLocking SpecSpinFP SpecSpinEDF SpecMSRPFP ProofSpin ProofSpinFP ProofLockRules ProofSpinTable ProofMSRP ProofMSRPFP ProofMSRPRTA.
Import ListNotations.
Open Scope Z_scope.

(** The task sets the bounds are for. *)
Record fp_ok (info : list taskinfo) (n : nat) : Prop := {
  fo_wf : wf_info info;
  fo_cpu : forall t, In t info -> (ti_cluster t < n)%nat;
  fo_prio : forall t, In t info -> (ti_prio t < UNLIMITED)%N;
  fo_distinct : distinct_priorities info;
  fo_cost : forall t, In t info -> (1 <= ti_cost t)%N;
  fo_deadline : forall t, In t info -> (1 <= ti_deadline t)%N }.

(** ** Example: two processors, resource 0 is global, resource 1 is local *)
Definition ex_info : list taskinfo :=
  [TI 0 0 20 10 10 0 2 [Req 1 1 1 false]; TI 1 1 40 30 30 0 5 [Req 0 1 2 false; Req 1 1 2 false]; TI 2 2 40 30 30 1 6 [Req 0 2 3 false]].
Definition ex_table : table := Table 16 40 [[(6, 9)]; [(0, 7)]; [(0, 8)]]
  [[CReq 2 0 1 0 0 3; CReq 1 0 0 1 3 5; CReq 2 0 1 3 5 8]; [CReq 1 0 0 5 5 7; CReq 0 0 0 8 8 9]]
  [repeat (Some (1%nat, 0%nat)) 7 ++ repeat (Some (0%nat, 0%nat)) 2; repeat (Some (2%nat, 0%nat)) 8].
Ltac in3 := match goal with H : In _ ex_info |- _ => destruct H as [<-|[<-|[<-|[]]]] end.
Example ex_ok : fp_ok ex_info 2.
Proof.
  constructor.
  - split; [reflexivity|]. intros t H. in3; (split; [reflexivity|]); cbn; repeat constructor; cbn; intros X; decompose [or] X; first [discriminate|contradiction].
  - intros t H. in3; cbn; lia.
  - intros t H. in3; reflexivity.
  - intros t u H H'. in3; in3; cbn; intros; first [reflexivity|discriminate].
  - intros t H. in3; discriminate.
  - intros t H. in3; discriminate.
Qed.
Example ex_execution : spin_execution ex_info (table_exec ex_table) /\ fifo_order ex_info (table_exec ex_table).
Proof.
  split; [apply table_ok_sound; vm_compute; reflexivity|]. intros r a b G A B.
  refine (pairs_sound ex_info ex_table (fun _ a b => negb (cr_issue a <? cr_issue b) || (cr_end a <=? cr_start b)) (fun _ a b => cr_issue a < cr_issue b -> cr_end a <= cr_start b) _ _ r a b G A B); [|vm_compute; reflexivity].
  intros _ x y X. apply orb_true_iff in X. destruct X as [X|X]; [apply negb_true_iff, Z.ltb_ge in X; intros; lia|apply Z.leb_le in X; auto].
Qed.
Example ex_partition : partition_of ex_info 0 (firstn 2 ex_info).
Proof.
  split; [|cbn; repeat constructor]. intros t. split.
  - intros [<-|[<-|[]]]; (split; [cbn; auto|reflexivity]).
  - intros [H C]. in3; [left; reflexivity|right; left; reflexivity|discriminate C].
Qed.
Example ex_result : exists res, bound_response_times 50 1 (map (msrp_task ex_info 2) (firstn 2 ex_info)) = Accepted (true, res) /\ map snd res = [7; 10].
Proof. eexists. split; vm_compute; reflexivity. Qed.

(** ** The bounds *)

(** No job spins longer than its remote blocking. *)
Theorem C61_spin_bound info n E i k t a m : fp_ok info n -> spin_execution info E -> fifo_order info E -> nth_error info i = Some t ->
  (N.of_nat (count (fun x => runs E info (i, k) x && spins E info (i, k) x) a m) <= i_len (bb_remote (nth i (msrp_bounds info n) (BB inter0 inter0 inter0 inter0 inter0))))%N.
Proof.
  intros OK SE FI T. destruct (wf_nth info i t (fo_wf _ _ OK) T) as [ID IN]. pose proof (spin_time info E (spin_lock_rules info E SE) FI n (fo_cpu _ _ OK) i k t a m T) as X.
  subst i. fold noB. rewrite (proj1 (bounds_nth info n t (fo_wf _ _ OK) IN (fo_cpu _ _ OK t IN))), (proj1 (remote_spec info n t)). exact X.
Qed.
Print Assumptions C61_spin_bound.
Example ex_remote : map (fun b => i_len (bb_remote b)) (msrp_bounds ex_info 2) = [0; 3; 4]%N.
Proof. reflexivity. Qed.

(** The local blocking is the longest time for which a job of lower priority on
    the same processor can keep it from the job. *)
Theorem C61_local_bound info n t : fp_ok info n -> In t info ->
  let B := i_len (bb_local (nth (ti_id t) (msrp_bounds info n) (BB inter0 inter0 inter0 inter0 inter0))) in
  (forall v, fp_blocker info n t v -> (v <= B)%N) /\ (B = 0%N \/ fp_blocker info n t B).
Proof. intros OK T. apply (local_spec info n t (fo_wf _ _ OK) (fo_prio _ _ OK) (fo_cpu _ _ OK) (fo_deadline _ _ OK) (fo_distinct _ _ OK) T). Qed.
Print Assumptions C61_local_bound.
(** task 0 waits for task 1, which spins for three units and then executes for two *)
Example ex_local : map (fun b => i_len (bb_local b)) (msrp_bounds ex_info 2) = [5; 0; 0]%N.
Proof. reflexivity. Qed.

(** ** Response times *)

(** The response times that the analysis computes with the bounds hold in every
    schedule, whether or not the other processors pass the test. *)
Theorem C61_response_times_safe info n E c l fuel no_cpus verdict res i t f r : fp_ok info n -> spin_execution info E -> fifo_order info E -> partition_of info c l ->
  bound_response_times fuel no_cpus (map (msrp_task info n) l) = Accepted (verdict, res) -> nth_error l i = Some t -> nth_error res i = Some (f, r) ->
  r <= Z.of_N (ti_deadline t) /\ forall k, x_comp E (ti_id t) k <= x_rel E (ti_id t) k + r.
Proof.
  intros OK SE FI PA H L R. assert (TI : In t info) by (apply PA; eapply nth_error_In; exact L).
  destruct (rta_criterion info n c l fuel no_cpus verdict res i t f r (fo_wf _ _ OK) (fo_prio _ _ OK) (fo_cpu _ _ OK) (fo_deadline _ _ OK) (fo_distinct _ _ OK) PA H L R) as [CR D].
  split; [exact D|]. intros k. apply (fp_criterion_safe info E n (fo_wf _ _ OK) (fo_distinct _ _ OK) SE FI (fo_cpu _ _ OK) (fo_cost _ _ OK) (ti_id t) k t r (wf_id info t (fo_wf _ _ OK) TI) CR).
Qed.
Print Assumptions C61_response_times_safe.
Example ex_response k : x_comp (table_exec ex_table) 0 k <= x_rel (table_exec ex_table) 0 k + 7.
Proof.
  destruct ex_execution as [SE FI]. destruct ex_result as [res [H S]]. destruct res as [|[f r] res]; [discriminate S|]. cbn in S. injection S as -> _.
  apply (C61_response_times_safe _ _ _ _ _ _ _ _ _ 0%nat _ f 7 ex_ok SE FI ex_partition H eq_refl eq_refl).
Qed.

(** Accepted on every processor: all deadlines are met. *)
Theorem C61_all_meet info n E : fp_ok info n -> spin_execution info E -> fifo_order info E ->
  (forall c, exists l fuel res, partition_of info c l /\ bound_response_times fuel 1 (map (msrp_task info n) l) = Accepted (true, res)) -> all_meet info E.
Proof.
  intros OK SE FI H i k t T. destruct (wf_nth info i t (fo_wf _ _ OK) T) as [ID IN]. destruct (H (ti_cluster t)) as [l [fuel [res [PA V]]]].
  assert (TL : In t l) by (apply PA; auto). destruct (In_nth_error _ _ TL) as [j J].
  assert (LE : length res = length (map (msrp_task info n) l)) by (destruct (ProofFP.bound_constrained fuel 1 _ res V) as [_ CD]; destruct (ProofFP.bound_spec fuel _ true res CD V) as [_ [_ [X _]]]; apply X; reflexivity).
  destruct (nth_error res j) as [[f r]|] eqn:R; [|apply nth_error_None in R; rewrite LE, map_length in R; assert (j < length l)%nat by (apply nth_error_Some; congruence); lia].
  destruct (C61_response_times_safe info n E (ti_cluster t) l fuel 1 true res j t f r OK SE FI PA V J R) as [D X]. specialize (X k). rewrite ID in X. lia.
Qed.
Print Assumptions C61_all_meet.
Example ex_meet : all_meet ex_info (table_exec ex_table).
Proof.
  destruct ex_execution as [SE FI]. apply (C61_all_meet ex_info 2); [exact ex_ok|exact SE|exact FI|]. intros [|[|c]].
  - exists (firstn 2 ex_info), 50%nat. eexists. split; [exact ex_partition|vm_compute; reflexivity].
  - exists (skipn 2 ex_info), 50%nat. eexists. split; [|vm_compute; reflexivity]. split; [|cbn; repeat constructor]. intros t. split; [intros [<-|[]]; (split; [cbn; auto|reflexivity])|]. intros [H C]. in3; [discriminate C|discriminate C|left; reflexivity].
  - exists [], 50%nat. eexists. split; [|vm_compute; reflexivity]. split; [|constructor]. intros t. split; [intros []|]. intros [H C]. in3; discriminate C.
Qed.

(** assign_fp_preemption_levels: the order of the tasks, without ties. *)
Theorem C61_levels info : map ti_prio info = assign_fp_preemption_levels (length info) -> distinct_priorities info /\ StronglySorted (fun a b => (ti_prio a < ti_prio b)%N) info.
Proof.
  unfold assign_fp_preemption_levels. intros H.
  assert (S : StronglySorted (fun a b => (ti_prio a < ti_prio b)%N) info).
  { revert H. generalize 0%nat. induction info as [|t l IH]; intros s H; [constructor|]. cbn in H. injection H as H1 H2. constructor; [apply (IH (S s) H2)|]. apply Forall_forall. intros u U. assert (X : In (ti_prio u) (map N.of_nat (seq (S s) (length l)))) by (rewrite <- H2; apply in_map; exact U).
    apply in_map_iff in X. destruct X as [x [<- X]]. apply in_seq in X. lia. }
  split; [|exact S]. intros t u T U _ P. clear H. induction S as [|a l S IH F]; [destruct T|]. rewrite Forall_forall in F. destruct T as [->|T], U as [->|U]; [reflexivity|specialize (F u U); lia|specialize (F t T); lia|exact (IH T U)].
Qed.
Print Assumptions C61_levels.
Example levels_ex : map ti_prio ex_info = assign_fp_preemption_levels 3.
Proof. reflexivity. Qed.

(** Not so if [num_cpus] does not cover all processors: their tasks count as not blocked. *)
Definition bad_info : list taskinfo := [TI 0 0 20 10 10 0 8 []; TI 1 1 100 100 100 0 5 [Req 0 1 5 false]; TI 2 2 100 100 100 1 1 [Req 0 1 1 false]].
Definition bad_table : table := Table 14 100 [[(1, 13)]; [(0, 5)]; [(5, 6)]]
  [[CReq 1 0 0 0 0 5; CReq 2 0 1 5 5 6]]
  [repeat (Some (1%nat, 0%nat)) 5 ++ repeat (Some (0%nat, 0%nat)) 8; repeat None 5 ++ [Some (2%nat, 0%nat)]].
Theorem C61_processors_unsafe : exists info n E l fuel res, distinct_priorities info /\ spin_execution info E /\ partition_of info 0 l /\
  bound_response_times fuel 1 (map (msrp_task info n) l) = Accepted (true, res) /\ ~ (forall i k t, nth_error info i = Some t -> ti_cluster t = 0%nat -> x_comp E i k <= x_rel E i k + Z.of_N (ti_deadline t)).
Proof.
  exists bad_info, 0%nat, (table_exec bad_table), (firstn 2 bad_info), 200%nat. eexists.
  split; [intros t u [<-|[<-|[<-|[]]]] [<-|[<-|[<-|[]]]]; cbn; intros; first [reflexivity|discriminate]|].
  split; [apply table_ok_sound; vm_compute; reflexivity|].
  split; [split; [|cbn; repeat constructor]; intros t; split; [intros [<-|[<-|[]]]; (split; [cbn; auto|reflexivity])|intros [[<-|[<-|[<-|[]]]] C]; [left; reflexivity|right; left; reflexivity|discriminate C]]|].
  split; [vm_compute; reflexivity|]. intros H. specialize (H 0%nat 0%nat _ eq_refl eq_refl). vm_compute in H. apply H. reflexivity.
Qed.
Print Assumptions C61_processors_unsafe.
