(** The constraints of the spin-lock programs, as conditions on sums. *)
From Coq Require Import NArith ZArith QArith List Bool Lia Lqa Arith.
From Verif Require Import ModelLocking ModelLP ModelLPSpin SpecLocking SpecLP ProofLP ProofLocking ProofSpin ProofLockingMono.
Import ListNotations.
Open Scope Q_scope.

(** * Satisfying a program while it is built *)
Record sat {V} (x : V -> Q) (lp : lprog V) : Prop := {
  sat_bin : forall v, In v (lp_bins lp) -> x v == 0 \/ x v == 1;
  sat_eq : forall e b, In (e, b) (lp_eqs lp) -> evaluate x e == b;
  sat_le : forall e b, In (e, b) (lp_ineqs lp) -> evaluate x e <= b }.

Lemma sat_empty {V} (x : V -> Q) : sat x lp_empty.
Proof. constructor; intros; cbn in *; contradiction. Qed.

Lemma sat_inequality {V} (x : V -> Q) e b lp : sat x lp -> (has_terms e = true -> evaluate x e <= b) -> sat x (add_inequality e b lp).
Proof.
  intros [S1 S2 S3] H. unfold add_inequality. destruct (has_terms e) eqn:T; [|constructor; assumption]. constructor; cbn; [assumption|assumption|].
  intros e0 b0 I. apply in_app_or in I. destruct I as [I|[I|[]]]; [auto|]. injection I as <- <-. auto.
Qed.

Lemma sat_equality {V} (x : V -> Q) e b lp : sat x lp -> (has_terms e = true -> evaluate x e == b) -> sat x (add_equality e b lp).
Proof.
  intros [S1 S2 S3] H. unfold add_equality. destruct (has_terms e) eqn:T; [|constructor; assumption]. constructor; cbn; [assumption| |assumption].
  intros e0 b0 I. apply in_app_or in I. destruct I as [I|[I|[]]]; [auto|]. injection I as <- <-. auto.
Qed.

Lemma sat_binary {V} (x : V -> Q) v lp : sat x lp -> (x v == 0 \/ x v == 1) -> sat x (declare_variable_binary v lp).
Proof.
  intros [S1 S2 S3] H. constructor; cbn; [|assumption|assumption]. intros w I. apply in_app_or in I. destruct I as [I|[<-|[]]]; auto.
Qed.

Lemma sat_objective {V} (x : V -> Q) e lp : sat x lp -> sat x (add_objective e lp).
Proof. intros [S1 S2 S3]. constructor; cbn; assumption. Qed.

Lemma sat_fold {V A} (x : V -> Q) (f : lprog V -> A -> lprog V) l : forall lp,
  (forall lp a, In a l -> sat x lp -> sat x (f lp a)) -> sat x lp -> sat x (fold_left f l lp).
Proof. induction l as [|a r IH]; intros lp H S; cbn; [exact S|]. apply IH; [intros; apply H; [right|]; assumption|]. apply H; [left; reflexivity|exact S]. Qed.

Lemma sat_feasible {V} (x : V -> Q) lp : sat x lp -> (forall v, 0 <= x v <= 1) -> feasible lp x.
Proof. intros [S1 S2 S3] H. constructor; assumption. Qed.

(** * Sums *)
Definition qsum {A} (f : A -> Q) (l : list A) : Q := fold_right (fun a s => f a + s) 0 l.

Lemma qsum_cons {A} (f : A -> Q) a l : qsum f (a :: l) = f a + qsum f l.
Proof. reflexivity. Qed.
Lemma qsum_nil {A} (f : A -> Q) : qsum f [] = 0.
Proof. reflexivity. Qed.

Lemma qsum_app {A} (f : A -> Q) a b : qsum f (a ++ b) == qsum f a + qsum f b.
Proof. induction a as [|x r IH]; cbn [app]; [rewrite qsum_nil, Qplus_0_l; reflexivity|]. rewrite !qsum_cons, IH. ring. Qed.

Lemma qsum_ext {A} (f g : A -> Q) l : (forall a, In a l -> f a == g a) -> qsum f l == qsum g l.
Proof. induction l as [|x r IH]; intros H; [reflexivity|]. rewrite !qsum_cons, IH by (intros; apply H; right; assumption). rewrite (H x) by (left; reflexivity). reflexivity. Qed.

Lemma qsum_le {A} (f g : A -> Q) l : (forall a, In a l -> f a <= g a) -> qsum f l <= qsum g l.
Proof.
  induction l as [|x r IH]; intros H; [apply Qle_refl|]. rewrite !qsum_cons. apply Qplus_le_compat; [apply H; left; reflexivity|apply IH; intros; apply H; right; assumption].
Qed.

Lemma qsum_zero {A} (f : A -> Q) l : (forall a, In a l -> f a == 0) -> qsum f l == 0.
Proof. induction l as [|x r IH]; intros H; [reflexivity|]. rewrite qsum_cons, IH by (intros; apply H; right; assumption). rewrite (H x) by (left; reflexivity). reflexivity. Qed.

Lemma qsum_nonneg {A} (f : A -> Q) l : (forall a, In a l -> 0 <= f a) -> 0 <= qsum f l.
Proof. intros H. apply Qle_trans with (qsum (fun _ : A => 0) l); [rewrite qsum_zero; [apply Qle_refl|reflexivity]|apply qsum_le; exact H]. Qed.

Lemma qsum_map {A B} (f : B -> Q) (g : A -> B) l : qsum f (map g l) = qsum (fun a => f (g a)) l.
Proof. induction l as [|x r IH]; cbn [map]; [reflexivity|]. rewrite !qsum_cons, IH. reflexivity. Qed.

Lemma qsum_concat {A} (f : A -> Q) ll : qsum f (concat ll) == qsum (qsum f) ll.
Proof. induction ll as [|l r IH]; cbn [concat]; [reflexivity|]. rewrite qsum_app, qsum_cons, IH. reflexivity. Qed.

Lemma qsum_plus {A} (f g : A -> Q) l : qsum (fun a => f a + g a) l == qsum f l + qsum g l.
Proof. induction l as [|x r IH]; [reflexivity|]. rewrite !qsum_cons, IH. ring. Qed.

Lemma evaluate_concat {V} (x : V -> Q) ll : evaluate x (concat ll) == qsum (evaluate x) ll.
Proof. induction ll as [|l r IH]; cbn [concat]; [reflexivity|]. rewrite evaluate_app, qsum_cons, IH. reflexivity. Qed.

Lemma evaluate_var {V} (x : V -> Q) v : evaluate x (add_var v) == x v.
Proof. cbn. lra. Qed.

Lemma evaluate_sub {V} (x : V -> Q) v : evaluate x (sub_var v) == - x v.
Proof. cbn. lra. Qed.

Lemma evaluate_vars {V A} (x : V -> Q) (f : A -> V) l : evaluate x (concat (map (fun a => add_var (f a)) l)) == qsum (fun a => x (f a)) l.
Proof. rewrite evaluate_concat, qsum_map. apply qsum_ext. intros a _. apply evaluate_var. Qed.

(** the instances of requests *)
Definition isum (x : var -> Q) (ti : taskinfo) (b : btype) (rs : list rbound) : Q :=
  qsum (fun r => qsum (fun v => x (request_var r v b)) (request_instances r ti)) rs.

Lemma evaluate_instances x ti b rs : evaluate x (sum_instances ti b rs) == isum x ti b rs.
Proof. unfold sum_instances, isum. rewrite evaluate_concat, qsum_map. apply qsum_ext. intros r _. apply evaluate_vars. Qed.

Lemma isum_concat x ti b ll : isum x ti b (concat ll) == qsum (isum x ti b) ll.
Proof. unfold isum. apply qsum_concat. Qed.

(** * Membership *)
Lemma in_set_insert x l y : In y (set_insert x l) <-> y = x \/ In y l.
Proof.
  induction l as [|z r IHl]; cbn [set_insert In]; [intuition congruence|]. destruct (Nat.ltb x z); cbn [set_insert In]; [intuition congruence|]. destruct (Nat.eqb_spec x z) as [Q|Q]; cbn [set_insert In]; [subst; intuition congruence|]. rewrite IHl. intuition congruence.
Qed.

Lemma set_insert_sorted x l : Sorted.StronglySorted lt l -> Sorted.StronglySorted lt (set_insert x l).
Proof.
  induction 1 as [|y r S IH F]; cbn [set_insert]; [repeat constructor|]. destruct (Nat.ltb_spec x y) as [L|L].
  - constructor; [constructor; assumption|]. constructor; [exact L|]. rewrite Forall_forall in *. intros z Hz. specialize (F z Hz). lia.
  - destruct (Nat.eqb_spec x y) as [->|N]; [constructor; assumption|]. constructor; [exact IH|]. rewrite Forall_forall in *. intros z Hz. apply in_set_insert in Hz. destruct Hz as [->|Hz]; [lia|auto].
Qed.

Lemma all_resources_gen rs : forall s, Sorted.StronglySorted lt s ->
  Sorted.StronglySorted lt (fold_left (fun s r => set_insert (rb_res r) s) rs s) /\
  forall q, In q (fold_left (fun s r => set_insert (rb_res r) s) rs s) <-> In q s \/ exists r, In r rs /\ rb_res r = q.
Proof.
  induction rs as [|r rs IH]; intros s S; cbn [fold_left].
  - split; [exact S|]. intros q. split; [auto|]. intros [H|[r [[] _]]]. exact H.
  - destruct (IH (set_insert (rb_res r) s) (set_insert_sorted _ _ S)) as [A B]. split; [exact A|]. intros q. rewrite B, in_set_insert. split.
    + intros [[->|H]|[r' [H1 H2]]]; [right; exists r; split; [left|]; reflexivity|auto|right; exists r'; split; [right|]; assumption].
    + intros [H|[r' [[<-|H1] H2]]]; [auto|left; left; congruence|right; exists r'; auto].
Qed.

Lemma in_all_resources info q : In q (get_all_resources info) <-> exists t r, In t info /\ In r (ti_requests t) /\ q_res r = q.
Proof.
  unfold get_all_resources. destruct (all_resources_gen (all_requests info) [] (Sorted.SSorted_nil _)) as [_ B]. rewrite B. split.
  - intros [[]|[r [H1 H2]]]. apply in_all_requests in H1. destruct H1 as [t [x [Ht [Hx ->]]]]. exists t, x. auto.
  - intros [t [x [H1 [H2 H3]]]]. right. exists (RB t x). split; [apply in_all_requests; exists t, x; auto|exact H3].
Qed.

Lemma all_resources_nodup info : NoDup (get_all_resources info).
Proof.
  unfold get_all_resources. destruct (all_resources_gen (all_requests info) [] (Sorted.SSorted_nil _)) as [A _]. revert A. generalize (fold_left (fun s r => set_insert (rb_res r) s) (all_requests info) []). intros l A.
  induction A as [|x r S IH F]; constructor; [|exact IH]. intros H. rewrite Forall_forall in F. specialize (F x H). lia.
Qed.

Lemma in_requests_of t r : In r (requests_of t) <-> rb_task r = t /\ In (rb_req r) (ti_requests t).
Proof.
  unfold requests_of. rewrite in_map_iff. split.
  - intros [q [<- H]]. auto.
  - intros [<- H]. exists (rb_req r). split; [destruct r; reflexivity|exact H].
Qed.

Lemma in_requests_for t q r : In r (requests_for t q) <-> rb_task r = t /\ In (rb_req r) (ti_requests t) /\ rb_res r = q.
Proof. unfold requests_for. rewrite filter_In, in_requests_of, Nat.eqb_eq. tauto. Qed.

Lemma in_cluster_requests info c q r : In r (cluster_requests_for info c q) <-> In (rb_task r) info /\ ti_cluster (rb_task r) = c /\ In (rb_req r) (ti_requests (rb_task r)) /\ rb_res r = q.
Proof.
  unfold cluster_requests_for. rewrite in_concat, split_by_cluster_nth. split.
  - intros [l [H1 H2]]. apply in_map_iff in H1. destruct H1 as [t [<- H1]]. apply in_requests_for in H2. destruct H2 as [<- [H2 H3]]. apply filter_In in H1. rewrite Nat.eqb_eq in H1. tauto.
  - intros [H1 [H2 [H3 H4]]]. exists (requests_for (rb_task r) q). split; [|apply in_requests_for; auto]. apply in_map_iff. exists (rb_task r). split; [reflexivity|]. apply filter_In. rewrite Nat.eqb_eq. auto.
Qed.

(** * Conditions for the common constraints *)
Record common_ok (info : list taskinfo) (ti : taskinfo) (x : var -> Q) : Prop := {
  ok_mutex : forall t r v, In t info -> ti_id t <> ti_id ti -> In r (requests_of t) -> In v (request_instances r ti) ->
    x (request_var r v BLOCKING_DIRECT) + x (request_var r v BLOCKING_ARRIVAL) <= 1;
  ok_conflict : forall q, In q (get_local_resources info) -> (ti_prio ti < nth q (get_priority_ceilings info) UNLIMITED)%N -> x (arrival_enabled q) == 0;
  ok_one : qsum (fun q => x (arrival_enabled q)) (get_all_resources info) <= 1;
  ok_binary : forall q, x (arrival_enabled q) == 0 \/ x (arrival_enabled q) == 1;
  ok_none : forall q, In q (get_all_resources info) -> sum_over (fun t => sum_over (fun r => q_num (rb_req r)) (requests_for t q)) (local_lp info ti) = 0%N -> x (arrival_enabled q) == 0;
  ok_higher : forall t, In t info -> ti_cluster t = ti_cluster ti -> (ti_prio t < ti_prio ti)%N -> isum x ti BLOCKING_ARRIVAL (requests_of t) <= 0;
  ok_local_direct : forall t, In t info -> ti_cluster t = ti_cluster ti -> ti_id t <> ti_id ti -> isum x ti BLOCKING_DIRECT (requests_of t) == 0;
  ok_local_arrival : forall q, In q (get_all_resources info) -> isum x ti BLOCKING_ARRIVAL (concat (map (fun t => requests_for t q) (local_lp info ti))) <= x (arrival_enabled q);
  ok_windows : forall q tx, In q (get_all_resources info) -> get_num_requests_for ti q = 0%N -> In tx info -> ti_cluster tx <> ti_cluster ti ->
    isum x ti BLOCKING_DIRECT (requests_for tx q) <= NQ (count_requests_in_contention_windows info ti tx q) }.

Record msrp_ok (info : list taskinfo) (ti : taskinfo) (x : var -> Q) : Prop := {
  ok_direct : forall q c, In q (get_all_resources info) -> c <> ti_cluster ti ->
    isum x ti BLOCKING_DIRECT (cluster_requests_for info c q) <= NQ (count_local_hp_reqs info ti q);
  ok_remote_arrival : forall q c, In q (get_all_resources info) -> c <> ti_cluster ti ->
    isum x ti BLOCKING_ARRIVAL (cluster_requests_for info c q) <= x (arrival_enabled q) }.

Lemma sat_no_arrival info ti x rs : (forall q, x (arrival_enabled q) == 0 \/ x (arrival_enabled q) == 1) ->
  (forall q, In q rs -> sum_over (fun t => sum_over (fun r => q_num (rb_req r)) (requests_for t q)) (local_lp info ti) = 0%N -> x (arrival_enabled q) == 0) ->
  forall lp e, sat x lp -> evaluate x e == 0 ->
  sat x (fst (fold_left (no_arrival_step info ti) rs (lp, e))) /\ evaluate x (snd (fold_left (no_arrival_step info ti) rs (lp, e))) == 0.
Proof.
  intros HB. induction rs as [|q rs IH]; intros H lp e S E; cbn [fold_left]; [split; assumption|].
  destruct (no_arrival_step info ti (lp, e) q) as [lp1 e1] eqn:St. unfold no_arrival_step in St. injection St as <- <-. apply IH.
  - intros q' Hq. apply H. right. exact Hq.
  - apply sat_binary; auto.
  - destruct (N.eqb_spec (sum_over (fun t => sum_over (fun r => q_num (rb_req r)) (requests_for t q)) (local_lp info ti)) 0) as [Z|Z]; [|exact E].
    rewrite evaluate_app, E, evaluate_var, (H q (or_introl eq_refl) Z). reflexivity.
Qed.

Lemma common_sat info ti x lp : common_ok info ti x -> sat x lp -> sat x (add_common_spinlock_constraints info ti lp).
Proof.
  intros [K1 K2 K3 K4 K5 K6 K7 K8 K9] S. unfold add_common_spinlock_constraints.
  assert (S1 : sat x (add_common_mutex_constraints info ti lp)).
  { unfold add_common_mutex_constraints. apply sat_fold; [|exact S]. intros lp1 t Ht S1. apply sat_fold; [|exact S1]. intros lp2 r Hr S2. apply sat_fold; [|exact S2]. intros lp3 v Hv S3.
    apply sat_inequality; [exact S3|]. intros _. rewrite evaluate_app, !evaluate_var. apply filter_In in Ht. destruct Ht as [Ht1 Ht2]. apply negb_true_iff, Nat.eqb_neq in Ht2. eapply K1; eassumption. }
  assert (S2 : sat x (add_common_conflict_set_constraints info ti (add_common_mutex_constraints info ti lp))).
  { apply sat_equality; [exact S1|]. intros _. rewrite evaluate_vars. apply qsum_zero. intros q Hq. apply filter_In in Hq. destruct Hq as [Hq1 Hq2]. apply N.ltb_lt in Hq2. auto. }
  set (lp2 := add_common_conflict_set_constraints _ _ _) in *.
  assert (S3 : sat x (add_common_atmostone_arrival_blocking_res_constraints info ti lp2)).
  { unfold add_common_atmostone_arrival_blocking_res_constraints. clear - S2 K3. revert K3. destruct (get_all_resources info) as [|q0 qs]; intros K3; [exact S2|]. apply sat_inequality; [exact S2|]. intros _. rewrite evaluate_vars. exact K3. }
  set (lp3 := add_common_atmostone_arrival_blocking_res_constraints _ _ _) in *.
  assert (S4 : sat x (add_common_no_arrival_blocking_constraints info ti lp3)).
  { unfold add_common_no_arrival_blocking_constraints. destruct (sat_no_arrival info ti x (get_all_resources info) K4 K5 lp3 [] S3 (Qeq_refl 0)) as [A B].
    assert (G : forall p : lprog var * linexp var, sat x (fst p) -> evaluate x (snd p) == 0 -> sat x (let '(lp1, e) := p in add_inequality e 0 lp1)).
    { intros [l e] A' B'. cbn [fst snd] in *. apply sat_inequality; [exact A'|]. intros _. rewrite B'. apply Qle_refl. }
    apply G; [exact A|exact B]. }
  set (lp4 := add_common_no_arrival_blocking_constraints _ _ _) in *.
  assert (S5 : sat x (add_common_no_local_higher_priority_arrival_constraints info ti lp4)).
  { unfold add_common_no_local_higher_priority_arrival_constraints. apply sat_fold; [|exact S4]. intros l t Ht Sl. rewrite split_by_cluster_nth in Ht. apply filter_In in Ht. destruct Ht as [Ht1 Ht2]. apply Nat.eqb_eq in Ht2.
    destruct (N.ltb_spec (ti_prio t) (ti_prio ti)) as [L|L]; [|exact Sl]. apply sat_inequality; [exact Sl|]. intros _. rewrite evaluate_instances. auto. }
  set (lp5 := add_common_no_local_higher_priority_arrival_constraints _ _ _) in *.
  assert (S6 : sat x (add_common_local_direct_blocking_constraints info ti lp5)).
  { apply sat_equality; [exact S5|]. intros _. rewrite evaluate_concat, qsum_map. apply qsum_zero. intros t Ht. rewrite split_by_cluster_nth in Ht. apply filter_In in Ht. destruct Ht as [Ht1 Ht2]. apply Nat.eqb_eq in Ht2.
    destruct (Nat.eqb_spec (ti_id t) (ti_id ti)) as [Q|Q]; cbn [negb]; [reflexivity|]. rewrite evaluate_instances. auto. }
  set (lp6 := add_common_local_direct_blocking_constraints _ _ _) in *.
  assert (S7 : sat x (add_common_atmostonce_local_arrival_constraints info ti lp6)).
  { unfold add_common_atmostonce_local_arrival_constraints. apply sat_fold; [|exact S6]. intros l q Hq Sl.
    assert (EV : evaluate x (concat (map (fun t => sum_instances ti BLOCKING_ARRIVAL (requests_for t q)) (local_lp info ti))) <= x (arrival_enabled q)).
    { rewrite evaluate_concat, qsum_map. apply (Qle_trans _ _ _) with (2 := K8 q Hq). rewrite isum_concat, qsum_map. apply qsum_le. intros t _. rewrite evaluate_instances. apply Qle_refl. }
    destruct (has_terms (concat (map (fun t => sum_instances ti BLOCKING_ARRIVAL (requests_for t q)) (local_lp info ti)))) eqn:T.
    - apply sat_inequality; [exact Sl|]. intros _. rewrite evaluate_app, evaluate_sub. lra.
    - apply sat_inequality; [exact Sl|]. intros X. rewrite X in T. discriminate. }
  set (lp7 := add_common_atmostonce_local_arrival_constraints _ _ _) in *.
  unfold add_common_transitive_contention_window_constraints. apply sat_fold; [|exact S7]. intros l q Hq Sl. destruct (N.eqb_spec (get_num_requests_for ti q) 0) as [Z|Z]; [|exact Sl].
  unfold add_contention_window_constraints_for_resource. apply sat_fold; [|exact Sl]. intros l1 tx Htx Sl1. apply filter_In in Htx. destruct Htx as [H1 H2]. apply negb_true_iff, Nat.eqb_neq in H2.
  apply sat_inequality; [exact Sl1|]. intros _. rewrite evaluate_instances. auto.
Qed.

Lemma msrp_sat info ti x lp : common_ok info ti x -> msrp_ok info ti x -> sat x lp -> sat x (add_msrp_constraints info ti lp).
Proof.
  intros K [M1 M2] S. unfold add_msrp_constraints. pose proof (common_sat info ti x lp K S) as S1. set (lp1 := add_common_spinlock_constraints _ _ _) in *.
  assert (OC : forall c, In c (other_clusters info ti) -> c <> ti_cluster ti) by (intros c Hc; apply filter_In in Hc; destruct Hc as [_ Hc]; apply negb_true_iff, Nat.eqb_neq in Hc; exact Hc).
  assert (S2 : sat x (add_msrp_max_direct_blocking_constraints info ti lp1)).
  { unfold add_msrp_max_direct_blocking_constraints. apply sat_fold; [|exact S1]. intros l q Hq Sl. apply sat_fold; [|exact Sl]. intros l1 c Hc Sl1. apply sat_inequality; [exact Sl1|]. intros _. rewrite evaluate_instances. auto. }
  unfold add_msrp_atmostonce_remote_arrival_constraints. apply sat_fold; [|exact S2]. intros l c Hc Sl. apply sat_fold; [|exact Sl]. intros l1 q Hq Sl1.
  destruct (has_terms (sum_instances ti BLOCKING_INDIRECT (cluster_requests_for info c q))) eqn:T.
  - apply sat_inequality; [apply sat_binary; [exact Sl1|apply K]|]. intros _. rewrite evaluate_app, evaluate_sub, evaluate_instances. specialize (M2 q c Hq (OC c Hc)). lra.
  - apply sat_inequality; [exact Sl1|]. intros X. rewrite X in T. discriminate.
Qed.

(** * The objective *)
Lemma add_ineq_obj {V} e b (lp : lprog V) : lp_obj (add_inequality e b lp) = lp_obj lp.
Proof. unfold add_inequality. destruct (has_terms e); reflexivity. Qed.
Lemma add_eq_obj {V} e b (lp : lprog V) : lp_obj (add_equality e b lp) = lp_obj lp.
Proof. unfold add_equality. destruct (has_terms e); reflexivity. Qed.
Lemma fold_obj {V A} (f : lprog V -> A -> lprog V) l : forall lp, (forall lp a, lp_obj (f lp a) = lp_obj lp) -> lp_obj (fold_left f l lp) = lp_obj lp.
Proof. induction l as [|a r IH]; intros lp H; cbn; [reflexivity|]. rewrite IH by exact H. apply H. Qed.

Lemma common_obj info ti lp : lp_obj (add_common_spinlock_constraints info ti lp) = lp_obj lp.
Proof.
  unfold add_common_spinlock_constraints, add_common_transitive_contention_window_constraints. rewrite fold_obj.
  2:{ intros l q. destruct (_ =? _)%N; [|reflexivity]. unfold add_contention_window_constraints_for_resource. apply fold_obj. intros; apply add_ineq_obj. }
  unfold add_common_atmostonce_local_arrival_constraints. rewrite fold_obj by (intros; apply add_ineq_obj).
  unfold add_common_local_direct_blocking_constraints. rewrite add_eq_obj.
  unfold add_common_no_local_higher_priority_arrival_constraints. rewrite fold_obj by (intros l a; destruct (_ <? _)%N; [apply add_ineq_obj|reflexivity]).
  unfold add_common_no_arrival_blocking_constraints.
  assert (G : forall rs lp e, lp_obj (fst (fold_left (no_arrival_step info ti) rs (lp, e))) = lp_obj lp).
  { induction rs as [|q rs IH]; intros l e; cbn [fold_left]; [reflexivity|]. unfold no_arrival_step at 2. rewrite IH. reflexivity. }
  assert (G' : forall p : lprog var * linexp var, lp_obj (let '(lp1, e) := p in add_inequality e 0 lp1) = lp_obj (fst p)) by (intros [l e]; apply add_ineq_obj).
  rewrite G', G.
  unfold add_common_atmostone_arrival_blocking_res_constraints. assert (A : forall l, lp_obj (match get_all_resources info with [] => l | rs => add_inequality (concat (map (fun res => add_var (arrival_enabled res)) rs)) 1 l end) = lp_obj l) by (intros l; destruct (get_all_resources info); [reflexivity|apply add_ineq_obj]).
  rewrite A. unfold add_common_conflict_set_constraints. rewrite add_eq_obj. unfold add_common_mutex_constraints.
  apply fold_obj. intros l t. apply fold_obj. intros l1 r. apply fold_obj. intros; apply add_ineq_obj.
Qed.

Lemma msrp_obj info ti lp : lp_obj (add_msrp_constraints info ti lp) = lp_obj lp.
Proof.
  unfold add_msrp_constraints, add_msrp_atmostonce_remote_arrival_constraints. rewrite fold_obj.
  2:{ intros l c. apply fold_obj. intros l1 q. destruct (has_terms _); rewrite add_ineq_obj; reflexivity. }
  unfold add_msrp_max_direct_blocking_constraints. rewrite fold_obj by (intros l q; apply fold_obj; intros; apply add_ineq_obj). apply common_obj.
Qed.

Definition objective (info : list taskinfo) (ti : taskinfo) (x : var -> Q) : Q :=
  qsum (fun t => qsum (fun r => qsum (fun v => NQ (rb_len r) * (x (request_var r v BLOCKING_DIRECT) + x (request_var r v BLOCKING_ARRIVAL))) (request_instances r ti)) (requests_of t)) (tasks_except info ti).

Lemma evaluate_objective info ti x lp : lp_obj lp = [] -> evaluate x (lp_obj (set_spinlock_blocking_objective info ti lp)) == objective info ti x.
Proof.
  intros H. unfold set_spinlock_blocking_objective, add_objective, objective. cbn [lp_obj]. rewrite H. cbn [app]. rewrite evaluate_concat, qsum_map. apply qsum_ext. intros t _.
  rewrite evaluate_concat, qsum_map. apply qsum_ext. intros r _. rewrite evaluate_concat, qsum_map. apply qsum_ext. intros v _. cbn [evaluate fold_right fst snd]. ring.
Qed.

Lemma msrp_objective info ti x : evaluate x (lp_obj (msrp_lp info ti)) == objective info ti x.
Proof. apply evaluate_objective. rewrite msrp_obj. reflexivity. Qed.
Lemma baseline_objective info ti x : evaluate x (lp_obj (baseline_lp info ti)) == objective info ti x.
Proof. apply evaluate_objective. rewrite common_obj. reflexivity. Qed.

Lemma msrp_feasible info ti x : common_ok info ti x -> msrp_ok info ti x -> (forall v, 0 <= x v <= 1) -> feasible (msrp_lp info ti) x.
Proof. intros K M R. apply sat_feasible; [|exact R]. apply sat_objective. apply msrp_sat; [exact K|exact M|apply sat_empty]. Qed.
Lemma baseline_feasible info ti x : common_ok info ti x -> (forall v, 0 <= x v <= 1) -> feasible (baseline_lp info ti) x.
Proof. intros K R. apply sat_feasible; [|exact R]. apply sat_objective. apply common_sat; [exact K|apply sat_empty]. Qed.

(** * The constraints of the baseline are among those of the MSRP analysis *)
Definition extends {V} (lp lp' : lprog V) : Prop := incl (lp_eqs lp) (lp_eqs lp') /\ incl (lp_ineqs lp) (lp_ineqs lp') /\ incl (lp_bins lp) (lp_bins lp').

Lemma extends_refl {V} (lp : lprog V) : extends lp lp.
Proof. split; [|split]; apply incl_refl. Qed.
Lemma extends_trans {V} (a b c : lprog V) : extends a b -> extends b c -> extends a c.
Proof. intros [A1 [A2 A3]] [B1 [B2 B3]]. split; [|split]; eapply incl_tran; eassumption. Qed.
Lemma extends_inequality {V} e b (lp : lprog V) : extends lp (add_inequality e b lp).
Proof. unfold add_inequality. destruct (has_terms e); [|apply extends_refl]. split; [|split]; cbn; [apply incl_refl|apply incl_appl, incl_refl|apply incl_refl]. Qed.
Lemma extends_binary {V} v (lp : lprog V) : extends lp (declare_variable_binary v lp).
Proof. split; [|split]; cbn; [apply incl_refl|apply incl_refl|apply incl_appl, incl_refl]. Qed.
Lemma extends_fold {V A} (f : lprog V -> A -> lprog V) l : (forall lp a, extends lp (f lp a)) -> forall lp, extends lp (fold_left f l lp).
Proof. intros H. induction l as [|a l IH]; intros lp; cbn; [apply extends_refl|]. eapply extends_trans; [apply H|apply IH]. Qed.

Lemma msrp_baseline_feasible info ti x : feasible (msrp_lp info ti) x -> feasible (baseline_lp info ti) x.
Proof.
  assert (X : extends (add_common_spinlock_constraints info ti lp_empty) (add_msrp_constraints info ti lp_empty)).
  { unfold add_msrp_constraints. apply (extends_trans _ (add_msrp_max_direct_blocking_constraints info ti (add_common_spinlock_constraints info ti lp_empty))).
    - unfold add_msrp_max_direct_blocking_constraints. apply extends_fold. intros lp q. cbv zeta. apply extends_fold. intros. apply extends_inequality.
    - unfold add_msrp_atmostonce_remote_arrival_constraints. apply extends_fold. intros lp c. apply extends_fold. intros lp' q. cbv zeta.
      destruct (has_terms _); [eapply extends_trans; [apply extends_binary|apply extends_inequality]|apply extends_inequality]. }
  destruct X as [X1 [X2 X3]]. intros [F1 F2 F3 F4]. constructor; [exact F1| | |].
  - intros v Hv. apply F2. apply X3. exact Hv.
  - intros e b H. apply (F3 e b). apply X1. exact H.
  - intros e b H. apply (F4 e b). apply X2. exact H.
Qed.
