(** C62: the analysis of the MSRP under partitioned EDF with linear programs. *)
From Coq Require Import NArith ZArith QArith Qround Qminmax List Bool Lia Arith Lqa.
From Verif Require Base.
From Verif Require Import ModelLocking ModelLP ModelLPSpin ModelPEDF SpecLocking SpecLP SpecSpinFP SpecSpinEDF SpecPEDF ProofSpin ProofLP ProofLPSpin ProofSpinTable ProofEDFTable ProofMSRPTest ProofPEDFVec ProofPEDFLP ProofPEDFCol ProofPEDFIn ProofPEDFMeet.
Import ListNotations ModelPEDF.
Open Scope Z_scope.

Lemma check_clusters_all f ks : check_clusters f ks = Some true -> forall k, In k ks -> f k = Some true.
Proof.
  induction ks as [|k ks IH]; intros H x I; [destruct I|]. cbn [check_clusters] in H. destruct (f k) as [[|]|] eqn:F; try discriminate. destruct I as [<-|I]; [exact F|apply IH; assumption].
Qed.

(** ** The verdict *)

(** If what the solver answers is never below the optimum, an accepted task set
    meets all deadlines in every schedule; numbers do not overflow, and tasks
    that share a local resource have the same relative deadline. *)
Theorem C62_lp_msrp_edf_safe info n fuel solver E before : msrp_ok info n -> numbers_fit info -> local_sharing_same_deadline info ->
  (forall c m t, (c < n)%nat -> 0 <= t -> let '(p, free) := columns info (pedf_msrp_lp exact info m t c) in value_bound p free (solver p free)) ->
  lp_pedf_msrp_is_schedulable fuel exact solver info = Some true -> edf_execution info E before -> all_meet info E.
Proof.
  intros OK FIT LOC B V EE.
  assert (X : forall D i k u, nth_error info i = Some u -> x_rel E i k + deadline u < Z.of_nat D -> x_comp E i k <= x_rel E i k + deadline u).
  { induction D as [|D IH]; intros i k u U L.
    - pose proof (ProofSpinEDFMeet.rel_low info E before n EE OK i k u U). unfold deadline in L. lia.
    - destruct (Z.eq_dec (x_rel E i k + deadline u) (Z.of_nat D)) as [EQ|NE]; [|apply IH; [exact U|lia]].
      pose proof (no_miss_lp info E before n EE OK (ti_cluster u) solver FIT) as N. specialize (N ltac:(intros m t T; apply B; [apply (mo_cpu _ _ OK); eapply nth_error_In; exact U|exact T]) LOC (Z.of_nat D) IH fuel).
      rewrite EQ. apply (N ltac:(apply (check_clusters_all _ _ V); apply in_seq; split; [lia|]; apply (cluster_lt info u); eapply nth_error_In; exact U) (i, k) u U eq_refl).
      unfold due. cbn [fst snd]. rewrite U. exact EQ. }
  intros i k u U. pose proof (ProofSpinEDFMeet.rel_low info E before n EE OK i k u U). apply (X (S (Z.to_nat (x_rel E i k + deadline u))) i k u U). unfold deadline. lia.
Qed.
Print Assumptions C62_lp_msrp_edf_safe.

(** *** Example: a global resource on two processors; task 1 may block task 0 on arrival *)
Definition ex_info : list taskinfo :=
  [TI 0 0 200 60 60 0 10 []; TI 1 1 400 300 300 0 20 [Req 0 1 2 false]; TI 2 1 400 300 300 1 20 [Req 0 2 2 false]]%N.
Ltac in3 := match goal with H : In _ ex_info |- _ => destruct H as [<-|[<-|[<-|[]]]] end.
Example ex_ok : msrp_ok ex_info 2.
Proof.
  constructor.
  - split; [reflexivity|]. intros t H. in3; (split; [reflexivity|]); cbn; repeat constructor; cbn; intros X; decompose [or] X; first [discriminate|contradiction].
  - intros t H. in3; cbn; lia.
  - intros t H. in3; reflexivity.
  - intros t H. in3; discriminate.
  - intros t H. in3; split; discriminate.
  - intros t q H Q. in3; cbn in Q; decompose [or] Q; subst; try contradiction; split; discriminate.
  - intros t u H H'. in3; in3; cbn; intros; first [reflexivity|discriminate].
Qed.
Example ex_fit : numbers_fit ex_info.
Proof. split; [discriminate|]. intros t q H Q. in3; cbn in Q; decompose [or] Q; subst; try contradiction; reflexivity. Qed.
Example ex_local : local_sharing_same_deadline ex_info.
Proof.
  intros r t u _ [T [q [Q R]]] [U [q' [Q' R']]]. in3; in3; cbn in Q, Q'; decompose [or] Q; decompose [or] Q'; subst; try contradiction; reflexivity.
Qed.

(** a solver that bounds the optimum from the right-hand sides *)
Definition rhs (l : list (linexp nat * Q)) : Q := fold_right (fun eb s => (Qmax 0 (snd eb) + s)%Q) 0%Q l.
Definition ex_solver (p : lprog nat) (_ : list nat) : Q := (2 + 2 * rhs (lp_ineqs p))%Q.
Lemma rhs_nonneg l : (0 <= rhs l)%Q.
Proof. induction l as [|x l IH]; [apply Qle_refl|]. cbn [rhs fold_right]. fold (rhs l). pose proof (Q.le_max_l 0 (snd x)). lra. Qed.
Lemma rhs_in e b l : In (e, b) l -> (b <= rhs l)%Q.
Proof.
  induction l as [|x l IH]; intros I; [destruct I|]. cbn [rhs fold_right]. fold (rhs l). pose proof (Q.le_max_l 0 (snd x)). pose proof (Q.le_max_r 0 (snd x)). pose proof (rhs_nonneg l). destruct I as [->|I]; [cbn [snd] in *; lra|specialize (IH I); lra].
Qed.
Lemma rhs_rename f (lp : lprog svar) e b : In (e, b) (lp_ineqs lp) -> (b <= rhs (lp_ineqs (rename f lp)))%Q.
Proof. intros I. apply (rhs_in (rename_exp f e)). cbn [rename lp_ineqs]. apply in_map_iff. exists (e, b). auto. Qed.

Example ex_bound c m t : (c < 2)%nat -> 0 <= t -> let '(p, free) := columns ex_info (pedf_msrp_lp exact ex_info m t c) in value_bound p free (ex_solver p free).
Proof.
  intros C T. pose proof (columns_bound exact ex_info m t c) as CB. unfold columns in *. cbv zeta in *. apply CB. clear CB. intros X NN H. rewrite (lp_objective ex_info c m t zero (zero_plausible ex_info 2 ex_ok c m t T)). unfold ex_solver.
  assert (I11 : (X (indicator 0) <= 1)%Q). { pose proof (H _ _ (has11 exact ex_info m t c eq_refl)) as Y. destruct m; cbn in Y; lra. }
  destruct c as [|[|c]]; [| |lia].
  - pose proof (H _ _ (has9 exact ex_info m t 0 eq_refl)) as H9. pose proof (H _ _ (has14 exact ex_info m t 0 0 (or_introl eq_refl))) as H14.
    pose proof (has10 exact ex_info m t 0 (TI 2 1 400 300 300 1 20 [Req 0 2 2 false])%N (Req 0 2 2 false)%N ltac:(cbn; tauto) ltac:(discriminate) ltac:(left; reflexivity)) as I10.
    pose proof (H _ _ I10) as H10. set (f := svar_index _). apply (rhs_rename f) in I10. remember (rhs _) as R. remember (inject_Z (_ * _)) as b. clear -NN H9 H10 H14 I10 I11. cbn in *. change (NQ 2) with 2%Q. pose proof (NN (arrival 0 0)). lra.
  - pose proof (H _ _ (has9 exact ex_info m t 1 eq_refl)) as H9. pose proof (H _ _ (has14 exact ex_info m t 1 0 (or_introl eq_refl))) as H14.
    pose proof (has10 exact ex_info m t 1 (TI 1 1 400 300 300 0 20 [Req 0 1 2 false])%N (Req 0 1 2 false)%N ltac:(cbn; tauto) ltac:(discriminate) ltac:(left; reflexivity)) as I10.
    pose proof (H _ _ I10) as H10. set (f := svar_index _). apply (rhs_rename f) in I10. remember (rhs _) as R. remember (inject_Z (_ * _)) as b. clear -NN H9 H10 H14 I10 I11. cbn in *. change (NQ 2) with 2%Q. pose proof (NN (arrival 0 0)). lra.
Qed.
Example ex_accepted : lp_pedf_msrp_is_schedulable 50 exact ex_solver ex_info = Some true.
Proof. vm_compute. reflexivity. Qed.
(** task 1 spins until 2, and task 0, released at 1, waits until 4 *)
Definition ex_table : table := Table 40 400 [[(1, 14)]; [(0, 32)]; [(0, 20)]]
  [[CReq 2 0 1 0 0 2; CReq 1 0 0 0 2 4; CReq 2 0 1 5 5 7]]
  [repeat (Some (1%nat, 0%nat)) 4 ++ repeat (Some (0%nat, 0%nat)) 10 ++ repeat (Some (1%nat, 0%nat)) 18; repeat (Some (2%nat, 0%nat)) 20].
Example ex_execution : edf_execution ex_info (table_exec ex_table) (edf_before ex_info (table_exec ex_table)).
Proof. apply table_edf_sound. vm_compute. reflexivity. Qed.
Example ex_safe : all_meet ex_info (table_exec ex_table).
Proof. exact (C62_lp_msrp_edf_safe _ _ _ _ _ _ ex_ok ex_fit ex_local ex_bound ex_accepted ex_execution). Qed.

(** ** What the analysis relies on *)

(** Tasks that share a local resource and have different deadlines: Constraint
    12 takes a resource for harmless if its ceiling equals the largest
    preemption level of the tasks with deadlines in the interval.  Here that
    level is the ceiling, and task 1 blocks task 0 although the optimum is 0. *)
Definition local_info : list taskinfo :=
  [TI 0 1 100 10 10 0 10 [Req 0 1 5 false]; TI 1 2 1000 100 100 0 8 [Req 0 1 5 false]]%N.
Definition zero_solver (_ : lprog nat) (_ : list nat) : Q := 0%Q.
Ltac in2 := match goal with H : In _ local_info |- _ => destruct H as [<-|[<-|[]]] end.
Lemma local_ok : msrp_ok local_info 1.
Proof.
  constructor.
  - split; [reflexivity|]. intros t H. in2; (split; [reflexivity|]); cbn; repeat constructor; cbn; intros X; decompose [or] X; first [discriminate|contradiction].
  - intros t H. in2; cbn; lia.
  - intros t H. in2; reflexivity.
  - intros t H. in2; discriminate.
  - intros t H. in2; split; discriminate.
  - intros t q H Q. in2; cbn in Q; decompose [or] Q; subst; try contradiction; split; discriminate.
  - intros t u H H'. in2; in2; cbn; intros; first [reflexivity|discriminate].
Qed.
Lemma local_fit : numbers_fit local_info.
Proof. split; [discriminate|]. intros t q H Q. in2; cbn in Q; decompose [or] Q; subst; try contradiction; reflexivity. Qed.
Lemma local_level t : (max_preemption_level local_info t 0 <=? 1)%N = (t <? 100).
Proof.
  unfold max_preemption_level. cbn [tasks_in local_info filter ti_cluster Nat.eqb fold_left]. unfold deadline. cbn [ti_deadline ti_prio]. change (Z.of_N 10) with 10. change (Z.of_N 100) with 100.
  destruct (Z.leb_spec 10 t), (Z.leb_spec 100 t), (Z.ltb_spec t 100); cbn; try reflexivity; lia.
Qed.
Lemma local_zero m t (X : svar -> Q) : (forall v, (0 <= X v)%Q) -> (forall e k, In (e, k) (lp_ineqs (pedf_msrp_lp exact local_info m t 0)) -> (evaluate X e <= k)%Q) -> (evaluate X (spin_objective local_info) <= 0)%Q.
Proof.
  intros NN H. assert (I : (X (indicator 0) <= 0)%Q).
  { destruct (Z.lt_ge_cases t 100) as [L|L].
    - pose proof (has12 exact local_info m t 0) as Y. cbv zeta in Y. change (get_local_resources local_info) with [0%nat] in Y. change (get_priority_ceilings local_info) with [1%N] in Y. cbn [filter nth] in Y. rewrite local_level in Y.
      apply Z.ltb_lt in L. rewrite L in Y. specialize (H _ _ (Y eq_refl)). cbn in H. lra.
    - pose proof (H _ _ (has13 exact local_info m t 0 0 (or_introl eq_refl))) as Y. unfold tasks_gt_dline in Y. cbn [local_info filter ti_cluster Nat.eqb] in Y. unfold deadline in Y. cbn [ti_deadline] in Y. change (Z.of_N 10) with 10 in Y. change (Z.of_N 100) with 100 in Y.
      destruct (Z.ltb_spec t 10); [lia|]. destruct (Z.ltb_spec t 100); [lia|]. cbn [andb] in Y. unfold sum_tasks in Y. cbn in Y. change (inject_Z 0) with 0%Q in Y. lra. }
  pose proof (H _ _ (has9 exact local_info m t 0 eq_refl)) as H9. pose proof (H _ _ (has14 exact local_info m t 0 0 (or_introl eq_refl))) as H14. cbn in H9, H14. cbn. change (NQ 5) with 5%Q.
  pose proof (NN (spin 0 0)). pose proof (NN (spin 1 0)). pose proof (NN (arrival 0 0)). pose proof (NN (arrival 1 0)). lra.
Qed.
Lemma objective_nonneg info (X : nat -> Q) f : (forall v, (0 <= X v)%Q) -> (0 <= evaluate X (rename_exp f (spin_objective info)))%Q.
Proof.
  intros NN. rewrite evaluate_rename. assert (Y : forall e : linexp svar, (forall k v, In (k, v) e -> (0 <= k)%Q) -> (0 <= evaluate (fun v => X (f v)) e)%Q).
  { induction e as [|[k v] e IH]; intros K; [apply Qle_refl|]. cbn [evaluate fold_right fst snd]. fold (evaluate (fun v => X (f v)) e). specialize (IH (fun k v I => K k v (or_intror I))). pose proof (K k v (or_introl eq_refl)) as K0. pose proof (Qmult_le_0_compat _ _ K0 (NN (f v))). lra. }
  apply Y. intros k v I. unfold spin_objective in I. apply in_concat in I. destruct I as [l [L I]]. apply in_map_iff in L. destruct L as [x [<- _]]. apply in_concat in I. destruct I as [l [L I]]. apply in_map_iff in L. destruct L as [q [<- _]]. cbv zeta in I.
  destruct (0 <? get_request_length x q)%N; [|destruct I]. assert (P : (0 <= NQ (get_request_length x q))%Q) by (unfold NQ; change 0%Q with (inject_Z 0); rewrite <- Zle_Qle; lia). destruct I as [I|[I|[]]]; inversion I; subst; exact P.
Qed.

Theorem C62_local_resources_unsafe : exists info n fuel solver E before, msrp_ok info n /\ numbers_fit info /\
  (forall c m t, (c < n)%nat -> 0 <= t -> let '(p, free) := columns info (pedf_msrp_lp exact info m t c) in bounded_optimum p free (solver p free)) /\
  lp_pedf_msrp_is_schedulable fuel exact solver info = Some true /\ edf_execution info E before /\ ~ all_meet info E.
Proof.
  set (T := Table 30 1000 [[(2, 16)]; [(0, 18)]] [[CReq 1 0 0 1 1 6]] [repeat (Some (1%nat, 0%nat)) 6 ++ repeat (Some (0%nat, 0%nat)) 10 ++ repeat (Some (1%nat, 0%nat)) 2]).
  exists local_info, 1%nat, 50%nat, zero_solver, (table_exec T), (edf_before local_info (table_exec T)).
  split; [exact local_ok|split; [exact local_fit|]]. split; [|split; [vm_compute; reflexivity|split; [apply table_edf_sound; vm_compute; reflexivity|intros H; specialize (H 0%nat 0%nat _ eq_refl); vm_compute in H; apply H; reflexivity]]].
  intros c m t C0 T0. assert (c = 0%nat) by lia. subst c. clear C0.
  pose proof (zero_plausible local_info 1 local_ok 0 m t T0) as ZP.
  pose proof (columns_bound exact local_info m t 0 0%Q) as CB. rewrite (lp_objective local_info 0 m t zero ZP) in CB. specialize (CB (local_zero m t)).
  unfold columns in *. cbv zeta in *. split; [|exact CB].
  pose proof (lp_feasible local_info 1 local_ok 0 m t zero ZP) as F. destruct (columns_feasible _ _ _ (vars_fit local_info 1 local_ok local_fit exact m t 0) F) as [z [Z1 _]]. exists z. split; [exact Z1|].
  apply Qle_antisym; [apply CB; exact Z1|]. cbn [rename lp_obj]. rewrite (lp_objective local_info 0 m t zero ZP). apply objective_nonneg. apply Z1.
Qed.
Print Assumptions C62_local_resources_unsafe.

(** Unsigned integers: the search for the last check point before an interval
    length subtracts a period from a smaller number.  Without any resources, a
    task set is accepted although a task needs 8 units until its deadline 5. *)
Definition wrap_info : list taskinfo := [TI 0 0 100 5 5 0 8 []; TI 1 1 57 50 50 1 1 []]%N.
Lemma fold_same {A B} (f : A -> B -> A) l a : (forall b, In b l -> f a b = a) -> fold_left f l a = a.
Proof. induction l as [|b l IH]; intros H; [reflexivity|]. cbn [fold_left]. rewrite (H b (or_introl eq_refl)). apply IH. intros x X. apply H. right. exact X. Qed.
Lemma wrap_empty u m t c : pedf_msrp_lp u wrap_info m t c = lp_empty.
Proof.
  assert (NR : forall p x, In x (filter p wrap_info) -> ti_requests x = []) by (intros p x X; apply filter_In in X; destruct X as [X _]; destruct X as [<-|[<-|[]]]; reflexivity).
  assert (R : get_all_resources wrap_info = []) by reflexivity. assert (RL : get_local_resources wrap_info = []) by reflexivity.
  unfold pedf_msrp_lp, add_at_max_one_request_per_processor_arrival, add_per_task_bound_spin_delay, add_at_max_one_request_per_processor_spin, spinlocks_lp. rewrite R. cbn [fold_left].
  rewrite !(fold_same (fun lp _ => lp)) by reflexivity.
  unfold add_exclude_non_conflicting_local_resources, add_arrival_blocking_max_one_local_request, add_no_requests_no_arrival_blocking, add_no_arrival_blocking, add_arrival_blocking_single_resource, sum_indicators, declare_indicators. rewrite R, RL. cbn [fold_left filter map concat has_terms add_inequality].
  unfold add_joint_upper_bound_remote_requests, add_no_spin_delay_local_requests, add_no_arrival_blocking_dline_inside_interval.
  rewrite (fold_same _ (tasks_leq_dline c t wrap_info)) by (intros b B; rewrite (NR _ b B); reflexivity).
  assert (N9 : concat (map (fun ti => concat (map (fun r => add_var (spin (ti_id ti) (q_res r))) (ti_requests ti))) (tasks_in c wrap_info)) = []).
  { assert (Y : forall l, (forall x, In x l -> ti_requests x = []) -> concat (map (fun ti => concat (map (fun r => add_var (spin (ti_id ti) (q_res r))) (ti_requests ti))) l) = []) by (induction l as [|x l IH]; intros H; [reflexivity|]; cbn [map concat]; rewrite (H x (or_introl eq_refl)); apply IH; intros y Y; apply H; right; exact Y). apply Y. intros x X. apply (NR _ x X). }
  rewrite N9. cbn [add_inequality has_terms]. rewrite (fold_same _ (tasks_not_in c wrap_info)) by (intros b B; rewrite (NR _ b B); reflexivity). destruct m; reflexivity.
Qed.

Theorem C62_wraparound_unsafe : exists info n fuel solver E before, msrp_ok info n /\ numbers_fit info /\ local_sharing_same_deadline info /\
  (forall c m t, (c < n)%nat -> 0 <= t -> let '(p, free) := columns info (pedf_msrp_lp u64 info m t c) in bounded_optimum p free (solver p free)) /\
  lp_pedf_msrp_is_schedulable fuel u64 solver info = Some true /\ edf_execution info E before /\ ~ all_meet info E.
Proof.
  set (T := Table 20 100 [[(0, 8)]; [(0, 1)]] [] [repeat (Some (0%nat, 0%nat)) 8; [Some (1%nat, 0%nat)]]).
  exists wrap_info, 2%nat, 20%nat, zero_solver, (table_exec T), (edf_before wrap_info (table_exec T)).
  assert (IN : forall t, In t wrap_info -> t = TI 0 0 100 5 5 0 8 [] \/ t = TI 1 1 57 50 50 1 1 []) by (intros t [<-|[<-|[]]]; auto).
  split; [|split; [|split; [|split; [|split; [|split]]]]].
  - constructor.
    + split; [reflexivity|]. intros t H. destruct (IN t H) as [->| ->]; (split; [reflexivity|constructor]).
    + intros t H. destruct (IN t H) as [->| ->]; cbn; lia.
    + intros t H. destruct (IN t H) as [->| ->]; reflexivity.
    + intros t H. destruct (IN t H) as [->| ->]; discriminate.
    + intros t H. destruct (IN t H) as [->| ->]; split; discriminate.
    + intros t q H Q. destruct (IN t H) as [->| ->]; destruct Q.
    + intros t u H H' L. destruct (IN t H) as [->| ->], (IN u H') as [->| ->]; first [reflexivity|discriminate L|idtac].
  - split; [discriminate|]. intros t q H Q. destruct (IN t H) as [->| ->]; destruct Q.
  - intros r t u _ [I [q [Q _]]]. destruct (IN t I) as [->| ->]; destruct Q.
  - intros c m t _ _. rewrite wrap_empty. split.
    + exists (fun _ => 0%Q). split; [|reflexivity]. constructor; intros; try (cbn in *; contradiction); lra.
    + intros x _. cbn. apply Qle_refl.
  - vm_compute. reflexivity.
  - apply table_edf_sound. vm_compute. reflexivity.
  - intros H. specialize (H 0%nat 0%nat _ eq_refl). vm_compute in H. apply H. reflexivity.
Qed.
Print Assumptions C62_wraparound_unsafe.
(** with unbounded integers the task set is rejected *)
Example wrap_exact : lp_pedf_msrp_is_schedulable 20 exact zero_solver wrap_info = Some false.
Proof. vm_compute. reflexivity. Qed.
