(** A plausible vector solves the linear program. *)
From Coq Require Import NArith ZArith QArith Qround List Bool Lia Lqa Arith.
From Verif Require Base.
From Verif Require Import ModelLocking ModelLP ModelLPSpin ModelPEDF SpecLocking SpecLP SpecSpinFP SpecSpinEDF SpecPEDF ProofLocking ProofLockingMono ProofLP ProofLPSpin ProofSpin ProofMSRPTest ProofPEDFVec.
Import ListNotations ModelPEDF.
Open Scope Z_scope.

Definition QZ {V} (X : V -> Z) (v : V) : Q := inject_Z (X v).

Lemma qsum_zs {A} (f : A -> Z) l : (qsum (fun a => inject_Z (f a)) l == inject_Z (zs f l))%Q.
Proof. induction l as [|x l IH]; [reflexivity|]. rewrite qsum_cons, zs_cons, IH, inject_Z_plus. reflexivity. Qed.
Lemma eval_vars {V A} (X : V -> Z) (f : A -> V) l : (evaluate (QZ X) (concat (map (fun a => add_var (f a)) l)) == inject_Z (zs (fun a => X (f a)) l))%Q.
Proof. rewrite evaluate_vars. apply qsum_zs. Qed.
Lemma inject_le a b : a <= b -> (inject_Z a <= inject_Z b)%Q.
Proof. rewrite <- Zle_Qle. auto. Qed.

Lemma find_request t r : NoDup (map q_res (ti_requests t)) -> In r (ti_requests t) -> find (fun q => Nat.eqb (q_res q) (q_res r)) (ti_requests t) = Some r.
Proof.
  intros ND I. induction (ti_requests t) as [|x l IH]; [destruct I|]. cbn [map] in ND. inversion ND as [|y z NI ND']; subst. cbn [find]. destruct I as [->|I]; [rewrite Nat.eqb_refl; reflexivity|].
  destruct (Nat.eqb_spec (q_res x) (q_res r)) as [EQ|NE]; [|apply IH; assumption]. exfalso. apply NI. rewrite EQ. apply in_map. exact I.
Qed.

Lemma zs_filter {A} (f : A -> Z) p l : zs f l = zs f (filter p l) + zs f (filter (fun x => negb (p x)) l).
Proof. induction l as [|x l IH]; [reflexivity|]. cbn [filter]. rewrite zs_cons, IH. destruct (p x); cbn [negb]; rewrite zs_cons; lia. Qed.

(** at most one member *)
Lemma zs_unique {A} (f : A -> Z) (key : A -> nat) k l : NoDup (map key l) -> (forall x, In x l -> f x <= if Nat.eqb (key x) k then 1 else 0) -> zs f l <= 1.
Proof.
  induction l as [|x l IH]; intros ND H; [cbn; lia|]. cbn [map] in ND. inversion ND as [|y z NI ND']; subst. rewrite zs_cons. pose proof (H x (or_introl eq_refl)) as HX. destruct (Nat.eqb_spec (key x) k) as [EQ|NE].
  - enough (zs f l <= 0) by lia. rewrite <- (zs_zero l). apply zs_le. intros y Y. specialize (H y (or_intror Y)). destruct (Nat.eqb_spec (key y) k) as [E2|]; [|exact H]. exfalso. apply NI. rewrite EQ, <- E2. apply in_map. exact Y.
  - specialize (IH ND' (fun y Y => H y (or_intror Y))). lia.
Qed.

Lemma nodup_map_filter {A} (key : A -> nat) p l : NoDup (map key l) -> NoDup (map key (filter p l)).
Proof.
  induction l as [|x l IH]; intros ND; [constructor|]. cbn [map] in ND. inversion ND as [|y z NI ND']; subst. cbn [filter]. destruct (p x); [|apply IH; exact ND'].
  cbn [map]. constructor; [|apply IH; exact ND']. intros Y. apply NI. apply in_map_iff in Y. destruct Y as [y [Y1 Y2]]. apply filter_In in Y2. apply in_map_iff. exists y. tauto.
Qed.

Section LP.
Variables (info : list taskinfo) (n : nat).
Hypothesis OK : msrp_ok info n.
Variables (c : nat) (m : mode) (t : Z) (v : vec).
Hypothesis PL : plausible info c m t v.

Definition remote (x : nat) : bool := match nth_error info x with Some u => negb (Nat.eqb (ti_cluster u) c) | None => false end.
Definition X (y : svar) : Z :=
  match sv_type y with
  | SPIN_BLOCKING => if remote (sv_task y) then v_s v (sv_task y) (sv_res y) else 0
  | ARRIVAL_BLOCKING => if remote (sv_task y) then v_a v (sv_task y) (sv_res y)
      else match v_b v with Some (i, q) => if Nat.eqb (ti_id i) (sv_task y) && Nat.eqb q (sv_res y) then 1 else 0 | None => 0 end
  | INDICATOR_ARRIVAL_BLOCKING => ind v (sv_res y)
  | CANCELLATIONS => 0
  end.

Lemma remote_not x : In x info -> ti_cluster x <> c -> remote (ti_id x) = true.
Proof. intros I C. unfold remote. rewrite (wf_id info x (mo_wf _ _ OK) I). apply negb_true_iff, Nat.eqb_neq. exact C. Qed.
Lemma remote_local x : In x info -> ti_cluster x = c -> remote (ti_id x) = false.
Proof. intros I C. unfold remote. rewrite (wf_id info x (mo_wf _ _ OK) I). apply negb_false_iff, Nat.eqb_eq. exact C. Qed.
Lemma same_id x y : In x info -> In y info -> ti_id x = ti_id y -> x = y.
Proof. intros I J E. pose proof (wf_id info x (mo_wf _ _ OK) I). pose proof (wf_id info y (mo_wf _ _ OK) J). congruence. Qed.
Lemma ids_nodup : NoDup (map ti_id info).
Proof. rewrite (proj1 (mo_wf _ _ OK)). apply seq_NoDup. Qed.

Lemma X_spin x q : In x info -> X (spin (ti_id x) q) = if Nat.eqb (ti_cluster x) c then 0 else v_s v (ti_id x) q.
Proof. intros I. unfold X, spin. cbn [sv_type sv_task sv_res]. destruct (Nat.eqb_spec (ti_cluster x) c) as [E|E]; [rewrite (remote_local x I E)|rewrite (remote_not x I E)]; reflexivity. Qed.
Lemma X_arrival_remote x q : In x info -> ti_cluster x <> c -> X (arrival (ti_id x) q) = v_a v (ti_id x) q.
Proof. intros I E. unfold X, arrival. cbn [sv_type sv_task sv_res]. rewrite (remote_not x I E). reflexivity. Qed.
Lemma X_arrival_local x q : In x info -> ti_cluster x = c -> X (arrival (ti_id x) q) = match v_b v with Some (i, r) => if Nat.eqb (ti_id i) (ti_id x) && Nat.eqb r q then 1 else 0 | None => 0 end.
Proof. intros I E. unfold X, arrival. cbn [sv_type sv_task sv_res]. rewrite (remote_local x I E). reflexivity. Qed.

Lemma ind_range q : 0 <= ind v q <= 1.
Proof. unfold ind. destruct (v_b v) as [[i r]|]; [destruct (Nat.eqb r q)|]; lia. Qed.
Lemma X_nonneg y : 0 <= X y.
Proof.
  unfold X. pose proof (pl_s _ _ _ _ _ PL (sv_task y) (sv_res y)). pose proof (pl_a _ _ _ _ _ PL (sv_task y) (sv_res y)). pose proof (ind_range (sv_res y)).
  destruct (sv_type y); [destruct (remote _); lia|destruct (remote _); [lia|]|lia|lia]. destruct (v_b v) as [[i r]|]; [destruct (_ && _)|]; lia.
Qed.

Lemma num_in x q : num x q <> 0 -> exists r, In r (ti_requests x) /\ q_res r = q.
Proof. unfold num, get_num_requests_for. destruct (find _ _) as [r|] eqn:F; [|cbn; congruence]. apply find_some in F. intros _. exists r. rewrite Nat.eqb_eq in F. tauto. Qed.
Lemma num_request x r : In x info -> In r (ti_requests x) -> num x (q_res r) = Z.of_N (q_num r).
Proof. intros I R. unfold num, get_num_requests_for. rewrite (find_request x r (proj2 (proj2 (mo_wf _ _ OK) x I)) R). reflexivity. Qed.

Lemma X_up y : ~ In y (unbounded_vars info) -> X y <= 1.
Proof.
  intros NI. assert (Z0 : forall x, In x info -> ti_cluster x <> c -> In (sv_res y) (get_all_resources info) \/ v_s v (ti_id x) (sv_res y) + v_a v (ti_id x) (sv_res y) <= 0).
  { intros x I C. destruct (Z.eq_dec (num x (sv_res y)) 0) as [E|E].
    - right. pose proof (pl_requests _ _ _ _ _ PL x (sv_res y) I C) as B. rewrite E in B. lia.
    - left. apply num_in in E. destruct E as [r [R1 R2]]. apply in_all_resources. exists x, r. auto. }
  assert (R : remote (sv_task y) = true -> (sv_type y = SPIN_BLOCKING \/ sv_type y = ARRIVAL_BLOCKING) -> v_s v (sv_task y) (sv_res y) + v_a v (sv_task y) (sv_res y) <= 0).
  { intros R T. unfold remote in R. destruct (nth_error info (sv_task y)) as [u|] eqn:U; [|discriminate]. destruct (wf_nth info (sv_task y) u (mo_wf _ _ OK) U) as [ID IU]. apply negb_true_iff, Nat.eqb_neq in R.
    destruct (Z0 u IU R) as [Q|Q]; [|rewrite ID in Q; exact Q]. exfalso. apply NI. unfold unbounded_vars. apply in_concat. exists (concat (map (fun q => [spin (ti_id u) q; arrival (ti_id u) q]) (get_all_resources info))). split; [apply in_map_iff; exists u; auto|].
    apply in_concat. exists [spin (ti_id u) (sv_res y); arrival (ti_id u) (sv_res y)]. split; [apply in_map_iff; exists (sv_res y); auto|]. destruct y as [yt yr ys]. cbn [sv_task sv_res sv_type] in *. subst yt. destruct T as [-> | ->]; cbn; auto. }
  pose proof (pl_s _ _ _ _ _ PL (sv_task y) (sv_res y)). pose proof (pl_a _ _ _ _ _ PL (sv_task y) (sv_res y)). pose proof (ind_range (sv_res y)).
  unfold X. destruct (sv_type y); [| |lia|lia].
  - destruct (remote (sv_task y)) eqn:E; [|lia]. specialize (R eq_refl (or_introl eq_refl)). lia.
  - destruct (remote (sv_task y)) eqn:E; [specialize (R eq_refl (or_intror eq_refl)); lia|]. destruct (v_b v) as [[i r]|]; [destruct (_ && _)|]; lia.
Qed.

Lemma arrival_zero i r : In i info -> ti_cluster i = c -> deadline i <= t -> X (arrival (ti_id i) r) = 0.
Proof.
  intros I C D. rewrite (X_arrival_local i r I C). pose proof (pl_block _ _ _ _ _ PL) as B. destruct (v_b v) as [[j q]|]; [|reflexivity]. destruct B as [_ [J [CJ [DJ _]]]].
  destruct (Nat.eqb_spec (ti_id j) (ti_id i)) as [E|E]; [|reflexivity]. pose proof (same_id j i J I E). subst j. lia.
Qed.

Lemma local_arrivals q : zs (fun i => X (arrival (ti_id i) q)) (tasks_in c info) <= ind v q.
Proof.
  unfold ind. destruct (v_b v) as [[j r]|] eqn:VB.
  - destruct (Nat.eqb_spec r q) as [E|E].
    + apply (zs_unique _ ti_id (ti_id j)).
      * apply nodup_map_filter, ids_nodup.
      * intros x I. apply in_tasks in I. rewrite (X_arrival_local x q (proj1 I) (proj2 I)), VB, (Nat.eqb_sym (ti_id x)). destruct (Nat.eqb (ti_id j) (ti_id x)); [destruct (Nat.eqb r q)|]; cbn; lia.
    + rewrite <- (zs_zero (tasks_in c info)). apply zs_le. intros x I. apply in_tasks in I. rewrite (X_arrival_local x q (proj1 I) (proj2 I)), VB. destruct (Nat.eqb_spec r q); [contradiction|]. rewrite andb_false_r. lia.
  - rewrite <- (zs_zero (tasks_in c info)). apply zs_le. intros x I. apply in_tasks in I. rewrite (X_arrival_local x q (proj1 I) (proj2 I)), VB. lia.
Qed.

Lemma sum_ind l : NoDup l -> zs (ind v) l <= 1.
Proof.
  intros ND. unfold ind. destruct (v_b v) as [[j r]|] eqn:VB.
  - apply (zs_unique _ (fun q => q) r); [rewrite map_id; exact ND|]. intros x _. rewrite (Nat.eqb_sym x r). lia.
  - rewrite zs_zero. lia.
Qed.

Lemma X_bin q : (QZ X (indicator q) == 0 \/ QZ X (indicator q) == 1)%Q.
Proof. unfold QZ, X, indicator. cbn [sv_type sv_res]. unfold ind. destruct (v_b v) as [[j r]|]; [destruct (Nat.eqb r q)|]; [right|left|left]; reflexivity. Qed.

Lemma sat_declare lp : sat (QZ X) lp -> sat (QZ X) (declare_indicators info lp).
Proof. intros S. unfold declare_indicators. apply sat_fold; [|exact S]. intros lp' q _ S'. apply sat_binary; [exact S'|apply X_bin]. Qed.

Lemma clusters_except_in k : In k (clusters_except info c) -> k <> c.
Proof. intros K. unfold clusters_except in K. apply filter_In in K. destruct K as [_ K]. apply negb_true_iff, Nat.eqb_neq in K. exact K. Qed.

Lemma lp_sat : sat (QZ X) (pedf_msrp_lp exact info m t c).
Proof.
  unfold pedf_msrp_lp, spinlocks_lp.
  assert (S1 : sat (QZ X) (add_no_arrival_blocking_dline_inside_interval info t c lp_empty)).
  { unfold add_no_arrival_blocking_dline_inside_interval. apply sat_fold; [|apply sat_empty]. intros lp i I S. apply sat_fold; [|exact S]. intros lp' r R S'. apply sat_inequality; [exact S'|]. intros _. rewrite evaluate_var.
    unfold tasks_leq_dline in I. apply filter_In in I. destruct I as [I1 I2]. rewrite andb_true_iff, Nat.eqb_eq, Z.leb_le in I2. unfold QZ. rewrite (arrival_zero i (q_res r) I1 (proj1 I2) (proj2 I2)). apply Qle_refl. }
  set (l1 := add_no_arrival_blocking_dline_inside_interval _ _ _ _) in *.
  assert (S2 : sat (QZ X) (add_no_spin_delay_local_requests info c l1)).
  { unfold add_no_spin_delay_local_requests. apply sat_inequality; [exact S1|]. intros _. rewrite evaluate_concat, qsum_map. apply Qle_lteq. right. apply qsum_zero. intros i I. apply in_tasks in I. rewrite evaluate_vars. apply qsum_zero. intros r R. unfold QZ. rewrite (X_spin i (q_res r) (proj1 I)), (proj2 I), Nat.eqb_refl. reflexivity. }
  set (l2 := add_no_spin_delay_local_requests _ _ _) in *.
  assert (S3 : sat (QZ X) (add_joint_upper_bound_remote_requests exact info t c l2)).
  { unfold add_joint_upper_bound_remote_requests. apply sat_fold; [|exact S2]. intros lp i I S. apply in_tasks_not in I. destruct I as [I C]. apply sat_fold; [|exact S]. intros lp' r R S'. apply sat_inequality; [exact S'|]. intros _. rewrite evaluate_app, !evaluate_var.
    unfold QZ. rewrite <- inject_Z_plus. apply inject_le. rewrite (X_spin i (q_res r) I), (X_arrival_remote i (q_res r) I C). destruct (Nat.eqb_spec (ti_cluster i) c); [contradiction|]. rewrite <- (num_request i r I R). pose proof (pl_requests _ _ _ _ _ PL i (q_res r) I C). lia. }
  set (l3 := add_joint_upper_bound_remote_requests _ _ _ _ _) in *.
  assert (S4 : sat (QZ X) (match m with AC_MODE => add_no_arrival_blocking info l3 | PDC_MODE => add_arrival_blocking_single_resource info l3 end)).
  { pose proof (pl_block _ _ _ _ _ PL) as B. destruct m.
    - unfold add_no_arrival_blocking. apply sat_inequality; [apply sat_declare; exact S3|]. intros _. unfold sum_indicators. rewrite eval_vars. apply (inject_le _ 0). rewrite <- (zs_zero (get_all_resources info)). apply zs_le. intros q _.
      unfold X, indicator. cbn [sv_type sv_res]. unfold ind. destruct (v_b v) as [[j r]|]; [destruct B; discriminate|lia].
    - unfold add_arrival_blocking_single_resource. apply sat_inequality; [apply sat_declare; exact S3|]. intros _. unfold sum_indicators. rewrite eval_vars. apply (inject_le _ 1). apply (sum_ind (get_all_resources info) (all_resources_nodup info)). }
  set (l4 := match m with AC_MODE => _ | PDC_MODE => _ end) in *.
  assert (S5 : sat (QZ X) (add_no_requests_no_arrival_blocking info t c l4)).
  { unfold add_no_requests_no_arrival_blocking. apply sat_fold; [|exact S4]. intros lp q Q S. apply sat_inequality; [apply sat_binary; [exact S|apply X_bin]|]. intros _. rewrite evaluate_var. unfold QZ. apply inject_le. rewrite sum_tasks_zs.
    unfold X, indicator. cbn [sv_type sv_res]. unfold ind. pose proof (pl_block _ _ _ _ _ PL) as B. assert (NN : 0 <= zs (fun ti => num ti q) (tasks_gt_dline c t info)) by (apply zs_nonneg; intros; apply num_nonneg).
    destruct (v_b v) as [[j r]|]; [|exact NN]. destruct (Nat.eqb_spec r q) as [->|]; [|exact NN]. destruct B as [_ [J [CJ [DJ [_ NJ]]]]]. etransitivity; [exact NJ|]. apply (zs_in (fun ti => num ti q)); [intros; apply num_nonneg|].
    unfold tasks_gt_dline. apply filter_In. split; [exact J|]. apply andb_true_iff. split; [apply Nat.eqb_eq; exact CJ|apply Z.ltb_lt; exact DJ]. }
  set (l5 := add_no_requests_no_arrival_blocking _ _ _ _) in *.
  assert (S6 : sat (QZ X) (add_arrival_blocking_max_one_local_request info c l5)).
  { unfold add_arrival_blocking_max_one_local_request. apply sat_fold; [|exact S5]. intros lp q Q S. apply sat_inequality; [exact S|]. intros _. rewrite evaluate_app, eval_vars, evaluate_sub. unfold QZ. pose proof (local_arrivals q) as LA. change (X (indicator q)) with (ind v q). apply inject_le in LA. lra. }
  set (l6 := add_arrival_blocking_max_one_local_request _ _ _) in *.
  assert (S7 : sat (QZ X) (add_exclude_non_conflicting_local_resources info t c l6)).
  { unfold add_exclude_non_conflicting_local_resources. destruct (has_terms _); [|exact S6]. apply sat_inequality; [exact S6|]. intros _. rewrite eval_vars. apply (inject_le _ 0). set (l := filter _ (get_local_resources info)).
    rewrite <- (zs_zero l). apply zs_le. intros q Q. unfold l in Q. apply filter_In in Q. destruct Q as [Q _]. apply local_resources_spec in Q. destruct Q as [_ Q].
    unfold X, indicator. cbn [sv_type sv_res]. unfold ind. pose proof (pl_block _ _ _ _ _ PL) as B. destruct (v_b v) as [[j r]|]; [|lia]. destruct (Nat.eqb_spec r q) as [E|]; [subst r|lia]. destruct B as [_ [J [CJ [DJ [GJ NJ]]]]].
    destruct GJ as [a [b [[A [qa [A1 A2]]] [[B [qb [B1 B2]]] NE]]]]. exfalso. apply NE. apply (Q a qa b qb); auto. }
  set (l7 := add_exclude_non_conflicting_local_resources _ _ _ _) in *.
  assert (S8 : sat (QZ X) (add_objective (spin_objective info) l7)) by (apply sat_objective; exact S7).
  set (l8 := add_objective _ _) in *.
  assert (S9 : sat (QZ X) (add_at_max_one_request_per_processor_spin exact info m t c l8)).
  { unfold add_at_max_one_request_per_processor_spin. apply sat_fold; [|exact S8]. intros lp k K S. apply clusters_except_in in K. apply sat_fold; [|exact S]. intros lp' q Q S'. apply sat_inequality; [exact S'|]. intros _. rewrite eval_vars. apply inject_le. rewrite sum_tasks_zs.
    etransitivity; [|apply (pl_spin _ _ _ _ _ PL k q K)]. apply zs_le. intros x I. apply in_tasks in I. rewrite (X_spin x q (proj1 I)). destruct (Nat.eqb_spec (ti_cluster x) c); [exfalso; apply K; destruct I; congruence|lia]. }
  set (l9 := add_at_max_one_request_per_processor_spin _ _ _ _ _ _) in *.
  assert (S10 : sat (QZ X) (add_per_task_bound_spin_delay exact info t c l9)).
  { unfold add_per_task_bound_spin_delay. apply sat_fold; [|exact S9]. intros lp x I S. apply in_tasks_not in I. destruct I as [I C]. apply sat_fold; [|exact S]. intros lp' q Q S'. apply sat_inequality; [exact S'|]. intros _. rewrite evaluate_var. unfold QZ. apply inject_le. rewrite sum_tasks_zs.
    rewrite (X_spin x q I). destruct (Nat.eqb_spec (ti_cluster x) c); [contradiction|]. pose proof (pl_task _ _ _ _ _ PL x q I C). pose proof (pl_a _ _ _ _ _ PL (ti_id x) q). lia. }
  unfold add_at_max_one_request_per_processor_arrival. apply sat_fold; [|exact S10]. intros lp k K S. apply clusters_except_in in K. apply sat_fold; [|exact S]. intros lp' q Q S'. apply sat_inequality; [exact S'|]. intros _. rewrite evaluate_app, eval_vars, evaluate_sub. unfold QZ. change (X (indicator q)) with (ind v q).
  assert (A : zs (fun x => X (arrival (ti_id x) q)) (tasks_in k info) <= ind v q).
  { etransitivity; [|apply (pl_arrival _ _ _ _ _ PL k q K)]. apply zs_le. intros x I. apply in_tasks in I. rewrite X_arrival_remote; [lia|tauto|destruct I; congruence]. }
  apply inject_le in A. lra.
Qed.

Lemma lp_feasible : bounded_feasible (pedf_msrp_lp exact info m t c) (unbounded_vars info) (QZ X).
Proof.
  destruct lp_sat as [A B C]. constructor; auto; intros y.
  - apply (inject_le 0). apply X_nonneg.
  - intros NI. apply (inject_le _ 1). apply X_up. exact NI.
Qed.

(** the objective *)
Lemma obj_ineq e b lp : lp_obj (add_inequality e b lp) = lp_obj (V := svar) lp.
Proof. unfold add_inequality. destruct (has_terms e); reflexivity. Qed.
Lemma obj_fold {A} (f : lprog svar -> A -> lprog svar) l : (forall lp a, lp_obj (f lp a) = lp_obj lp) -> forall lp, lp_obj (fold_left f l lp) = lp_obj lp.
Proof. intros H. induction l as [|a l IH]; intros lp; cbn [fold_left]; [reflexivity|]. rewrite IH. apply H. Qed.

Lemma lp_objective u : lp_obj (pedf_msrp_lp u info m t c) = spin_objective info.
Proof.
  assert (DI : forall lp, lp_obj (declare_indicators info lp) = lp_obj lp) by (intros lp; unfold declare_indicators; apply obj_fold; reflexivity).
  unfold pedf_msrp_lp, add_at_max_one_request_per_processor_arrival, add_per_task_bound_spin_delay, add_at_max_one_request_per_processor_spin.
  rewrite !obj_fold; try (intros; apply obj_fold; intros; apply obj_ineq). unfold spinlocks_lp. set (l7 := add_exclude_non_conflicting_local_resources _ _ _ _). cbn [add_objective lp_obj]. enough (E : lp_obj l7 = []) by (rewrite E; reflexivity).
  unfold l7, add_exclude_non_conflicting_local_resources. destruct (has_terms _); [rewrite obj_ineq|].
  all: unfold add_arrival_blocking_max_one_local_request, add_no_requests_no_arrival_blocking; rewrite !obj_fold; try (intros; rewrite obj_ineq; reflexivity).
  all: destruct m; [unfold add_no_arrival_blocking|unfold add_arrival_blocking_single_resource]; rewrite obj_ineq, DI; unfold add_joint_upper_bound_remote_requests, add_no_spin_delay_local_requests, add_no_arrival_blocking_dline_inside_interval.
  all: rewrite obj_fold, obj_ineq, obj_fold; try reflexivity; intros; apply obj_fold; intros; apply obj_ineq.
Qed.

Lemma objective_value : (evaluate (QZ X) (spin_objective info) == inject_Z (zs (fun x => zs (fun q => len x q * (X (spin (ti_id x) q) + X (arrival (ti_id x) q))) (get_all_resources info)) info)%Z)%Q.
Proof.
  unfold spin_objective. rewrite evaluate_concat, qsum_map, <- qsum_zs. apply qsum_ext. intros x I. rewrite evaluate_concat, qsum_map, <- qsum_zs. apply qsum_ext. intros q _. cbv zeta. unfold len. destruct (N.ltb_spec 0 (get_request_length x q)) as [L|L].
  - cbn [evaluate fold_right fst snd]. unfold QZ, NQ. rewrite inject_Z_mult, inject_Z_plus. ring.
  - replace (get_request_length x q) with 0%N by lia. reflexivity.
Qed.

Lemma lp_value : (inject_Z (rlen info c v + blen v)%Z <= evaluate (QZ X) (lp_obj (pedf_msrp_lp exact info m t c)))%Q.
Proof.
  rewrite lp_objective, objective_value. apply inject_le. rewrite (zs_filter _ (fun x => negb (Nat.eqb (ti_cluster x) c))). fold (tasks_not_in c info). apply Z.add_le_mono.
  - unfold rlen. apply zs_le. intros x I. apply in_tasks_not in I. destruct I as [I C]. apply zs_le. intros q Q. rewrite (X_spin x q I), (X_arrival_remote x q I C). destruct (Nat.eqb_spec (ti_cluster x) c); [contradiction|lia].
  - set (l := filter _ info). assert (IN : forall x, In x l <-> In x info /\ ti_cluster x = c) by (intros x; unfold l; rewrite filter_In, !negb_true_iff, negb_false_iff, Nat.eqb_eq; tauto).
    assert (NN : forall x q, 0 <= len x q * (X (spin (ti_id x) q) + X (arrival (ti_id x) q))) by (intros x q; pose proof (len_nonneg x q); pose proof (X_nonneg (spin (ti_id x) q)); pose proof (X_nonneg (arrival (ti_id x) q)); nia).
    assert (NS : forall x, 0 <= zs (fun q => len x q * (X (spin (ti_id x) q) + X (arrival (ti_id x) q))) (get_all_resources info)) by (intros x; apply zs_nonneg; intros; apply NN).
    unfold blen. pose proof (pl_block _ _ _ _ _ PL) as B. destruct (v_b v) as [[j r]|] eqn:VB; [|apply zs_nonneg; intros; apply NS]. destruct B as [_ [J [CJ [DJ [_ NJ]]]]].
    etransitivity; [|apply (zs_in (fun x => zs (fun q => len x q * (X (spin (ti_id x) q) + X (arrival (ti_id x) q))) (get_all_resources info)) l j); [intros; apply NS|apply IN; auto]].
    etransitivity; [|apply (zs_in (fun q => len j q * (X (spin (ti_id j) q) + X (arrival (ti_id j) q))) (get_all_resources info) r); [intros; apply NN|]].
    + rewrite (X_arrival_local j r J CJ), VB, !Nat.eqb_refl, (X_spin j r J), CJ, Nat.eqb_refl. cbn [andb]. lia.
    + destruct (num_in j r ltac:(lia)) as [q [Q1 Q2]]. apply in_all_resources. exists j, q. auto.
Qed.
End LP.
