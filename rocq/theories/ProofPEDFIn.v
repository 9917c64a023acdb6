(** Constraints that the program contains. *)
From Coq Require Import NArith ZArith QArith Qround List Bool Lia Arith Lqa.
From Verif Require Base.
From Verif Require Import ModelLocking ModelLP ModelLPSpin ModelPEDF SpecLP SpecPEDF ProofLP ProofLPSpin ProofSpin.
Import ListNotations ModelPEDF.

Lemma in_ext {V} (a b : lprog V) z : extends a b -> In z (lp_ineqs a) -> In z (lp_ineqs b).
Proof. intros [_ [X _]] I. exact (X z I). Qed.
Lemma in_ineq {V} e b (lp : lprog V) : has_terms e = true -> In (e, b) (lp_ineqs (add_inequality e b lp)).
Proof. intros H. unfold add_inequality. rewrite H. cbn [lp_ineqs]. apply in_or_app. right. left. reflexivity. Qed.
Lemma in_fold {V A} (f : lprog V -> A -> lprog V) z a : (forall lp a, extends lp (f lp a)) -> (forall lp, In z (lp_ineqs (f lp a))) -> forall l lp, In a l -> In z (lp_ineqs (fold_left f l lp)).
Proof.
  intros X H. induction l as [|b l IH]; intros lp I; [destruct I|]. cbn [fold_left]. destruct I as [->|I]; [|apply IH; exact I]. apply (in_ext _ _ z (extends_fold f l X (f lp a))), H.
Qed.
Lemma extends_objective {V} e (lp : lprog V) : extends lp (add_objective e lp).
Proof. split; [|split]; apply incl_refl. Qed.

Section In.
Variables (u : Z -> Z) (info : list taskinfo) (m : mode) (t : Z) (c : nat).
Notation LP0 := (pedf_msrp_lp u info m t c).

Ltac ext := repeat first [apply extends_refl | apply extends_inequality | apply extends_binary | apply extends_objective | (apply extends_fold; intros) | (eapply extends_trans; [|apply extends_inequality]) | (eapply extends_trans; [|apply extends_binary])].

Lemma ext17 lp : extends lp (add_at_max_one_request_per_processor_arrival info c lp). Proof. unfold add_at_max_one_request_per_processor_arrival. ext. Qed.
Lemma ext16 lp : extends lp (add_per_task_bound_spin_delay u info t c lp). Proof. unfold add_per_task_bound_spin_delay. ext. Qed.
Lemma ext15 lp : extends lp (add_at_max_one_request_per_processor_spin u info m t c lp). Proof. unfold add_at_max_one_request_per_processor_spin. ext. Qed.
Lemma ext12 lp : extends lp (add_exclude_non_conflicting_local_resources info t c lp). Proof. unfold add_exclude_non_conflicting_local_resources. cbv zeta. destruct (has_terms _); ext. Qed.
Lemma ext14 lp : extends lp (add_arrival_blocking_max_one_local_request info c lp). Proof. unfold add_arrival_blocking_max_one_local_request. ext. Qed.
Lemma ext13 lp : extends lp (add_no_requests_no_arrival_blocking info t c lp). Proof. unfold add_no_requests_no_arrival_blocking. ext. Qed.
Lemma ext11 lp : extends lp (match m with AC_MODE => add_no_arrival_blocking info lp | PDC_MODE => add_arrival_blocking_single_resource info lp end).
Proof. unfold add_no_arrival_blocking, add_arrival_blocking_single_resource, declare_indicators. destruct m; (eapply extends_trans; [|apply extends_inequality]); apply extends_fold; intros; apply extends_binary. Qed.
Lemma ext10 lp : extends lp (add_joint_upper_bound_remote_requests u info t c lp). Proof. unfold add_joint_upper_bound_remote_requests. ext. Qed.

Lemma after_common lp : extends lp (add_at_max_one_request_per_processor_arrival info c (add_per_task_bound_spin_delay u info t c (add_at_max_one_request_per_processor_spin u info m t c (add_objective (spin_objective info) lp)))).
Proof. eapply extends_trans; [|apply ext17]. eapply extends_trans; [|apply ext16]. eapply extends_trans; [|apply ext15]. apply extends_objective. Qed.
Lemma after13 lp : extends lp (add_exclude_non_conflicting_local_resources info t c (add_arrival_blocking_max_one_local_request info c lp)).
Proof. eapply extends_trans; [|apply ext12]. apply ext14. Qed.
Lemma after11 lp : extends lp (add_exclude_non_conflicting_local_resources info t c (add_arrival_blocking_max_one_local_request info c (add_no_requests_no_arrival_blocking info t c lp))).
Proof. eapply extends_trans; [|apply after13]. apply ext13. Qed.

(** Constraint 9 *)
Lemma has9 : let e := concat (map (fun ti => concat (map (fun r => add_var (spin (ti_id ti) (q_res r))) (ti_requests ti))) (tasks_in c info)) in has_terms e = true -> In (e, 0%Q) (lp_ineqs LP0).
Proof.
  intros e H. unfold pedf_msrp_lp, spinlocks_lp. cbv zeta. eapply in_ext; [apply after_common|]. eapply in_ext; [apply after11|]. eapply in_ext; [apply ext11|]. eapply in_ext; [apply ext10|].
  unfold add_no_spin_delay_local_requests. apply in_ineq. exact H.
Qed.
(** Constraint 10 *)
Lemma has10 x r : In x info -> ti_cluster x <> c -> In r (ti_requests x) ->
  In (add_var (arrival (ti_id x) (q_res r)) ++ add_var (spin (ti_id x) (q_res r)), inject_Z (max_num_remote_jobs u x t * Z.of_N (q_num r))) (lp_ineqs LP0).
Proof.
  intros X C R. unfold pedf_msrp_lp, spinlocks_lp. cbv zeta. eapply in_ext; [apply after_common|]. eapply in_ext; [apply after11|]. eapply in_ext; [apply ext11|].
  unfold add_joint_upper_bound_remote_requests. apply in_fold with (a := x).
  - intros lp a. ext.
  - intros lp. apply in_fold with (a := r); [intros; ext|intros; apply in_ineq; reflexivity|exact R].
  - unfold tasks_not_in. apply filter_In. split; [exact X|]. apply negb_true_iff, Nat.eqb_neq. exact C.
Qed.
(** Constraint 11 *)
Lemma has11 : has_terms (sum_indicators info) = true -> In (sum_indicators info, match m with AC_MODE => 0%Q | PDC_MODE => 1%Q end) (lp_ineqs LP0).
Proof.
  intros H. unfold pedf_msrp_lp, spinlocks_lp. cbv zeta. eapply in_ext; [apply after_common|]. eapply in_ext; [apply after11|].
  destruct m; unfold add_no_arrival_blocking, add_arrival_blocking_single_resource; apply in_ineq; exact H.
Qed.
(** Constraint 13 *)
Lemma has13 q : In q (get_all_resources info) -> In (add_var (indicator q), inject_Z (sum_tasks (fun ti => num ti q) (tasks_gt_dline c t info))) (lp_ineqs LP0).
Proof.
  intros H. unfold pedf_msrp_lp, spinlocks_lp. cbv zeta. eapply in_ext; [apply after_common|]. eapply in_ext; [apply after13|].
  unfold add_no_requests_no_arrival_blocking. apply in_fold with (a := q); [intros; ext|intros; apply in_ineq; reflexivity|exact H].
Qed.
(** Constraint 14 *)
Lemma has14 q : In q (get_all_resources info) -> In (concat (map (fun ti => add_var (arrival (ti_id ti) q)) (tasks_in c info)) ++ sub_var (indicator q), 0%Q) (lp_ineqs LP0).
Proof.
  intros H. unfold pedf_msrp_lp, spinlocks_lp. cbv zeta. eapply in_ext; [apply after_common|]. eapply in_ext; [apply ext12|].
  unfold add_arrival_blocking_max_one_local_request. apply in_fold with (a := q); [intros; ext|intros; apply in_ineq|exact H]. destruct (concat _); reflexivity.
Qed.
(** Constraint 12 *)
Lemma has12 : let e := concat (map (fun q => add_var (indicator q)) (filter (fun res => (max_preemption_level info t c <=? nth res (get_priority_ceilings info) UNLIMITED)%N) (get_local_resources info))) in
  has_terms e = true -> In (e, 0%Q) (lp_ineqs LP0).
Proof.
  intros e H. unfold pedf_msrp_lp, spinlocks_lp. cbv zeta. eapply in_ext; [apply after_common|]. unfold add_exclude_non_conflicting_local_resources. cbv zeta. fold e. rewrite H. apply in_ineq. exact H.
Qed.

(** A bound for the solutions of the program is one for the program over columns. *)
Lemma columns_bound b : (forall X : svar -> Q, (forall v, (0 <= X v)%Q) -> (forall e k, In (e, k) (lp_ineqs LP0) -> (evaluate X e <= k)%Q) -> (evaluate X (lp_obj LP0) <= b)%Q) ->
  let '(p, free) := columns info LP0 in value_bound p free b.
Proof.
  intros H. unfold columns. cbv zeta. set (f := svar_index _). intros z [Z1 _ _ _ Z5]. cbn [rename lp_obj]. rewrite evaluate_rename. apply H; [intros v; apply Z1|].
  intros e k I. rewrite <- (evaluate_rename f z e). apply Z5. cbn [rename lp_ineqs]. apply in_map_iff. exists (e, k). split; [reflexivity|exact I].
Qed.
End In.
