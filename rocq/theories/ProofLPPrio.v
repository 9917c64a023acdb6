(** The programs for priority-ordered spin locks: termination of the searches for
    wait-time bounds, and that the time lost in a busy window is a feasible solution
    when the tasks on each processor have one locking priority per resource. *)
From Coq Require Import NArith ZArith QArith List Bool Lia Arith Lqa.
From Verif Require Import ModelLocking SpecLocking ModelLP ModelLPSpin ModelLPUnordered ModelLPPrio SpecLP SpecSpinFP SpecPrio ProofSpin ProofLockingMono ProofLP ProofLPSpin ProofSpinCount ProofSpinFP ProofLPUnordered.
Import ListNotations.
Open Scope Z_scope.

(** * Maxima and lists *)
Lemma fold_max_ge {A} (f : A -> N) l : forall m, (m <= fold_left (fun m x => N.max m (f x)) l m)%N /\ forall a, In a l -> (f a <= fold_left (fun m x => N.max m (f x)) l m)%N.
Proof.
  induction l as [|x r IH]; intros m; cbn [fold_left]; [split; [lia|intros a []]|]. destruct (IH (N.max m (f x))) as [H1 H2]. split; [lia|]. intros a [<-|Ha]; [lia|auto].
Qed.
Lemma max_over_ge {A} (f : A -> N) l a : In a l -> (f a <= max_over f l)%N.
Proof. apply fold_max_ge. Qed.
Lemma max_over_const {A} (f : A -> N) l k : (forall a, In a l -> f a = k) -> max_over f l = k \/ (l = [] /\ max_over f l = 0%N).
Proof.
  intros H. destruct l as [|a l]; [right; auto|left]. unfold max_over. cbn [fold_left]. rewrite (H a) by (left; reflexivity). rewrite N.max_0_l.
  assert (H' : forall x, In x l -> f x = k) by (intros; apply H; right; assumption). clear H. induction l as [|x r IH]; cbn [fold_left]; [reflexivity|].
  rewrite (H' x) by (left; reflexivity). rewrite N.max_id. apply IH. intros; apply H'; right; assumption.
Qed.
Lemma max_over_le {A} (f : A -> N) l k : (forall a, In a l -> (f a <= k)%N) -> (max_over f l <= k)%N.
Proof.
  intros H. unfold max_over. assert (G : forall m, (m <= k)%N -> (fold_left (fun m x => N.max m (f x)) l m <= k)%N); [|apply G; lia].
  induction l as [|x r IH]; intros m M; cbn [fold_left]; [exact M|]. apply IH; [intros; apply H; right; assumption|]. specialize (H x (or_introl eq_refl)). lia.
Qed.

Lemma nodup_map_filter {A B} (g : A -> B) f (l : list A) : NoDup (map g l) -> NoDup (map g (filter f l)).
Proof.
  induction l as [|t l IH]; intros H; cbn in *; [constructor|]. inversion H as [|x y NI ND]; subst. destruct (f t); cbn; [|auto]. constructor; [|auto].
  intros X. apply NI. apply in_map_iff in X. destruct X as [u [<- X]]. apply filter_In in X. apply in_map. apply X.
Qed.

Lemma length_le1 {A} (l : list A) : NoDup l -> (forall a b, In a l -> In b l -> a = b) -> (length l <= 1)%nat.
Proof.
  intros ND H. destruct l as [|a [|b r]]; cbn; [lia|lia|]. inversion ND as [|x y NI _]; subst. exfalso. apply NI. left. apply H; [right; left; reflexivity|left; reflexivity].
Qed.

Lemma in_other_clusters info ti t : In t info -> ti_cluster t <> ti_cluster ti -> In (ti_cluster t) (other_clusters info ti).
Proof.
  intros T NC. apply filter_In. split; [|apply negb_true_iff, Nat.eqb_neq; exact NC]. apply in_seq. split; [lia|]. cbn.
  destruct (Nat.lt_ge_cases (ti_cluster t) (length (split_by_cluster info 0))) as [L|L]; [exact L|]. exfalso.
  pose proof (split_by_cluster_nth info (ti_cluster t)) as S. rewrite nth_overflow in S by exact L.
  assert (I : In t []) by (rewrite S; apply filter_In; split; [exact T|apply Nat.eqb_refl]). destruct I.
Qed.

Lemma in_remote_requests info ti q r : In r (remote_requests_for info ti q) <-> In (rb_task r) info /\ ti_cluster (rb_task r) <> ti_cluster ti /\ In (rb_req r) (ti_requests (rb_task r)) /\ rb_res r = q.
Proof.
  unfold remote_requests_for. rewrite in_concat. split.
  - intros [l [H1 H2]]. apply in_map_iff in H1. destruct H1 as [t [<- H1]]. apply filter_In in H1. destruct H1 as [H1 H3]. apply negb_true_iff, Nat.eqb_neq in H3. apply in_requests_for in H2. destruct H2 as [-> [H4 H5]]. auto.
  - intros [H1 [H2 [H3 H4]]]. exists (requests_for (rb_task r) q). split; [|apply in_requests_for; auto]. apply (in_map (fun t => requests_for t q)). apply filter_In. split; [exact H1|apply negb_true_iff, Nat.eqb_neq; exact H2].
Qed.

Lemma in_local_requests info ti q LP r : In r (local_requests_for info ti q LP) <-> In (rb_task r) info /\ ti_cluster (rb_task r) = ti_cluster ti /\
  (if LP then (ti_prio ti < ti_prio (rb_task r))%N else (ti_prio (rb_task r) <= ti_prio ti)%N) /\ In (rb_req r) (ti_requests (rb_task r)) /\ rb_res r = q.
Proof.
  unfold local_requests_for. rewrite in_concat, split_by_cluster_nth. split.
  - intros [l [H1 H2]]. apply in_map_iff in H1. destruct H1 as [t [<- H1]]. apply filter_In in H1. destruct H1 as [H1 H3]. apply filter_In in H1. destruct H1 as [H1 H6]. apply Nat.eqb_eq in H6.
    apply in_requests_for in H2. destruct H2 as [-> [H4 H5]]. repeat split; auto. destruct LP; [apply N.ltb_lt|apply N.leb_le]; exact H3.
  - intros [H1 [H2 [H3 [H4 H5]]]]. exists (requests_for (rb_task r) q). split; [|apply in_requests_for; auto]. apply (in_map (fun t => requests_for t q)). apply filter_In. split; [apply filter_In; split; [exact H1|apply Nat.eqb_eq; exact H2]|].
    destruct LP; [apply N.ltb_lt|apply N.leb_le]; exact H3.
Qed.

(** * The searches for the wait-time bound *)
Lemma delay_by_higher_mono info ti q sel a b : wf_info info -> (a <= b)%N -> (delay_by_higher info ti q sel a <= delay_by_higher info ti q sel b)%N.
Proof.
  intros WF L. apply sum_over_le. intros r R. apply filter_In in R. destruct R as [R _]. apply in_remote_requests in R. unfold get_max_num_requests, get_max_num_jobs.
  assert (C : (divide_with_ceil (a + ti_response (rb_task r)) (ti_period (rb_task r)) <= divide_with_ceil (b + ti_response (rb_task r)) (ti_period (rb_task r)))%N) by (apply ceil_mono; [apply WF; apply R|lia]).
  apply N.mul_le_mono_l, N.mul_le_mono_r. exact C.
Qed.

(** both searches: start with [s], and add [s] to the delay *)
Definition prio_search (info : list taskinfo) (ti : taskinfo) (q : nat) (sel : rbound -> bool) (s : N) : wait_outcome :=
  wait_loop (N.to_nat (ti_period ti) + 3) (fun estimate => s + delay_by_higher info ti q sel estimate)%N (ti_period ti) 0 s.

Lemma prio_search_terminates info ti q sel s : wf_info info -> prio_search info ti q sel s <> OutOfFuel.
Proof.
  intros WF. unfold prio_search. replace (N.to_nat (ti_period ti) + 3)%nat with (S (N.to_nat (ti_period ti) + 2)) by lia. cbn [wait_loop].
  destruct (N.leb_spec 0 (ti_period ti)) as [P|P]; cbn [andb]; [|lia]. destruct (N.eqb_spec 0 s) as [Q|Q]; cbn [negb]; [discriminate|].
  apply (wait_loop_terminates (fun estimate => (s + delay_by_higher info ti q sel estimate)%N)); [|lia|lia|lia].
  intros a b L. pose proof (delay_by_higher_mono info ti q sel a b WF L). lia.
Qed.

Lemma prio_search_cases info ti q sel s w : prio_search info ti q sel s = WaitBound w -> (w = 0 /\ s = 0)%N \/ (w = s + delay_by_higher info ti q sel w + 1)%N.
Proof.
  unfold prio_search. replace (N.to_nat (ti_period ti) + 3)%nat with (S (N.to_nat (ti_period ti) + 2)) by lia. cbn [wait_loop].
  destruct (N.leb_spec 0 (ti_period ti)) as [P|P]; cbn [andb]; [|discriminate]. destruct (N.eqb_spec 0 s) as [Q|Q]; cbn [negb]; intros H.
  - left. injection H as <-. auto.
  - right. apply (wait_loop_fixpoint _ _ _ _ _ _ H). reflexivity.
Qed.

(** * The constraints *)
Definition direct_hp (info : list taskinfo) (ti : taskinfo) (x : var -> Q) (q : nat) (sel : rbound -> bool) (wait : N) : Prop :=
  forall tx, In tx info -> ti_cluster tx <> ti_cluster ti ->
    (isum x ti BLOCKING_DIRECT (filter sel (requests_for tx q)) <= NQ (sum_over (fun r => get_max_num_requests r wait) (filter sel (requests_for tx q)) * count_local_hp_reqs info ti q))%Q.
Definition arrival_hp (info : list taskinfo) (ti : taskinfo) (x : var -> Q) (q : nat) (sel : rbound -> bool) (factor wait : N) : Prop :=
  forall tx, In tx info -> ti_cluster tx <> ti_cluster ti ->
    (isum x ti BLOCKING_ARRIVAL (filter sel (requests_for tx q)) <= NQ (sum_over (fun r => get_max_num_requests r wait) (filter sel (requests_for tx q)) * factor) * x (arrival_enabled q))%Q.
Definition lower_ok (rp : locking) (info : list taskinfo) (ti : taskinfo) (x : var -> Q) (q : nat) : Prop :=
  let rs := filter (lower rp (get_min_prio rp info ti q false)) (remote_requests_for info ti q) in
  (isum x ti BLOCKING_DIRECT rs <= NQ (count_local_hp_reqs info ti q))%Q /\ (isum x ti BLOCKING_ARRIVAL rs <= x (arrival_enabled q))%Q.

Definition wait_prio (rp : locking) (info : list taskinfo) (ti : taskinfo) (q : nat) (LP : bool) : N := or_response ti (bound_wait_time_prio rp info ti q (get_min_prio rp info ti q LP)).
Definition wait_fifo (rp : locking) (info : list taskinfo) (ti : taskinfo) (q : nat) (LP : bool) : N := or_response ti (bound_wait_time_prio_fifo rp info ti q (get_min_prio rp info ti q LP)).

Record prio_ok (rp : locking) (info : list taskinfo) (ti : taskinfo) (x : var -> Q) : Prop := {
  ok12 : forall q, In q (get_all_resources info) -> direct_hp info ti x q (highereq rp (get_min_prio rp info ti q false)) (wait_prio rp info ti q false);
  ok1314 : forall q, In q (get_all_resources info) -> lower_ok rp info ti x q;
  ok15 : forall q, In q (get_all_resources info) -> arrival_hp info ti x q (highereq rp (get_min_prio rp info ti q true)) 1 (wait_prio rp info ti q true) }.

Record prio_fifo_ok (rp : locking) (info : list taskinfo) (ti : taskinfo) (x : var -> Q) : Prop := {
  fok1314 : forall q, In q (get_all_resources info) -> lower_ok rp info ti x q;
  ok16 : forall q, In q (get_all_resources info) -> direct_hp info ti x q (higher rp (get_min_prio rp info ti q false)) (wait_fifo rp info ti q false);
  ok17 : forall q c, In q (get_all_resources info) -> c <> ti_cluster ti ->
    (isum x ti BLOCKING_DIRECT (filter (same rp (get_min_prio rp info ti q false)) (cluster_requests_for info c q)) <= NQ (count_local_hp_reqs info ti q))%Q;
  ok18 : forall q, In q (get_all_resources info) -> arrival_hp info ti x q (higher rp (get_min_prio rp info ti q true)) (count_local_hp_reqs info ti q) (wait_fifo rp info ti q true);
  ok19 : forall q c, In q (get_all_resources info) -> c <> ti_cluster ti ->
    (isum x ti BLOCKING_ARRIVAL (filter (same rp (get_min_prio rp info ti q true)) (cluster_requests_for info c q)) <= x (arrival_enabled q))%Q }.

Lemma sat_others {info ti} x (f : lprog var -> taskinfo -> lprog var) lp :
  (forall lp t, In t info -> ti_cluster t <> ti_cluster ti -> sat x lp -> sat x (f lp t)) -> sat x lp -> sat x (for_other_clusters info ti f lp).
Proof.
  intros H S. unfold for_other_clusters. apply sat_fold; [|exact S]. intros l c C Sl. apply sat_fold; [|exact Sl]. intros l1 t T Sl1. apply in_cluster in T. destruct T as [T <-]. apply H; [exact T|apply (other_clusters_neq info); exact C|exact Sl1].
Qed.
Lemma sat_direct_hp info ti x q sel wait lp : direct_hp info ti x q sel wait -> sat x lp -> sat x (for_other_clusters info ti (direct_blocking_HP ti sel (count_local_hp_reqs info ti q) wait q) lp).
Proof. intros H S. apply sat_others; [|exact S]. intros l t T NC Sl. apply sat_inequality; [exact Sl|]. intros _. rewrite evaluate_instances. auto. Qed.
Lemma sat_arrival_hp info ti x q sel factor wait lp : arrival_hp info ti x q sel factor wait -> sat x lp -> sat x (for_other_clusters info ti (arrival_blocking_HP ti sel factor wait q) lp).
Proof.
  intros H S. apply sat_others; [|exact S]. intros l t T NC Sl. unfold arrival_blocking_HP. cbv zeta. destruct (has_terms (sum_instances _ _ _)) eqn:HT; apply sat_inequality; try exact Sl.
  - intros _. rewrite evaluate_app, evaluate_instances. specialize (H t T NC). unfold sub_term. cbn [evaluate fold_right fst snd].
    set (m := (sum_over _ _ * _)%N) in *. set (a := x (arrival_enabled q)) in *. set (s := isum _ _ _ _) in *. setoid_replace (- NQ m * a + 0)%Q with (- (NQ m * a))%Q by ring. lra.
  - intros X. congruence.
Qed.
Lemma sat_lower rp info ti x lp : (forall q, In q (get_all_resources info) -> lower_ok rp info ti x q) -> sat x lp -> sat x (add_prio_blocking_LP_constraints rp info ti lp).
Proof.
  intros H S. unfold add_prio_blocking_LP_constraints. apply sat_fold; [|exact S]. intros l q Hq Sl. cbv zeta. destruct (H q Hq) as [H1 H2]. destruct (has_terms _); [|exact Sl].
  apply sat_inequality; [apply sat_inequality; [exact Sl|]|]; intros _.
  - rewrite evaluate_instances. exact H1.
  - rewrite evaluate_app, evaluate_instances, evaluate_sub. lra.
Qed.

Lemma others_obj info ti (f : lprog var -> taskinfo -> lprog var) lp : (forall lp t, lp_obj (f lp t) = lp_obj lp) -> lp_obj (for_other_clusters info ti f lp) = lp_obj lp.
Proof. intros H. unfold for_other_clusters. apply fold_obj. intros l c. apply fold_obj. exact H. Qed.
Lemma lower_obj rp info ti lp : lp_obj (add_prio_blocking_LP_constraints rp info ti lp) = lp_obj lp.
Proof. unfold add_prio_blocking_LP_constraints. apply fold_obj. intros l q. cbv zeta. destruct (has_terms _); [rewrite !add_ineq_obj; reflexivity|reflexivity]. Qed.

Lemma prio_objective rp info ti x : (evaluate x (lp_obj (prio_lp rp info ti)) == objective info ti x)%Q.
Proof.
  apply evaluate_objective. unfold add_prio_arrival_blocking_HP_constraints. rewrite fold_obj by (intros l q; apply others_obj; intros; apply add_ineq_obj). rewrite lower_obj.
  unfold add_prio_direct_blocking_HP_constraints. rewrite fold_obj by (intros l q; apply others_obj; intros; apply add_ineq_obj). rewrite common_obj. reflexivity.
Qed.
Lemma prio_fifo_objective rp info ti x : (evaluate x (lp_obj (prio_fifo_lp rp info ti)) == objective info ti x)%Q.
Proof.
  apply evaluate_objective. unfold add_prio_fifo_atmostonce_remote_arrival_constraints. rewrite fold_obj by (intros l q; apply fold_obj; intros l1 c; cbv zeta; destruct (has_terms _); rewrite add_ineq_obj; reflexivity).
  unfold add_prio_fifo_arrival_blocking_HP_constraints. rewrite fold_obj by (intros l q; apply others_obj; intros; apply add_ineq_obj).
  unfold add_prio_fifo_max_direct_blocking_constraints. rewrite fold_obj by (intros l q; apply fold_obj; intros; apply add_ineq_obj).
  unfold add_prio_fifo_direct_blocking_HP_constraints. rewrite fold_obj by (intros l q; apply others_obj; intros; apply add_ineq_obj). rewrite lower_obj, common_obj. reflexivity.
Qed.

Lemma prio_feasible rp info ti x : common_ok info ti x -> prio_ok rp info ti x -> (forall v, 0 <= x v <= 1)%Q -> feasible (prio_lp rp info ti) x.
Proof.
  intros K [P1 P2 P3] R. apply sat_feasible; [|exact R]. apply sat_objective. pose proof (common_sat info ti x lp_empty K (sat_empty x)) as S.
  apply sat_fold; [|apply sat_lower; [exact P2|apply sat_fold; [|exact S]]]; intros l q Hq Sl.
  - apply sat_arrival_hp; [apply P3; exact Hq|exact Sl].
  - apply sat_direct_hp; [apply P1; exact Hq|exact Sl].
Qed.
Lemma prio_fifo_feasible rp info ti x : common_ok info ti x -> prio_fifo_ok rp info ti x -> (forall v, 0 <= x v <= 1)%Q -> feasible (prio_fifo_lp rp info ti) x.
Proof.
  intros K [P0 P1 P2 P3 P4] R. apply sat_feasible; [|exact R]. apply sat_objective. pose proof (common_sat info ti x lp_empty K (sat_empty x)) as S.
  apply sat_fold; [|apply sat_fold; [|apply sat_fold; [|apply sat_fold; [|apply sat_lower; [exact P0|exact S]]]]]; intros l q Hq Sl.
  - cbv zeta. apply sat_fold; [|exact Sl]. intros l1 c Hc Sl1. destruct (has_terms _) eqn:T.
    + apply sat_inequality; [apply sat_binary; [exact Sl1|apply K]|]. intros _. rewrite evaluate_app, evaluate_sub, evaluate_instances. specialize (P4 q c Hq (other_clusters_neq info ti c Hc)). lra.
    + apply sat_inequality; [exact Sl1|]. intros X. congruence.
  - apply sat_arrival_hp; [apply P3; exact Hq|exact Sl].
  - apply sat_fold; [|exact Sl]. intros l1 c Hc Sl1. apply sat_inequality; [exact Sl1|]. intros _. rewrite evaluate_instances. apply P2; [exact Hq|apply (other_clusters_neq info); exact Hc].
  - apply sat_direct_hp; [apply P1; exact Hq|exact Sl].
Qed.

(** * Executions *)
Section Prio.
Variables (rp : locking) (info : list taskinfo) (i : nat) (ti : taskinfo) (E : execution) (ts : Z) (n : nat) (d : Z).
Hypothesis WF : wf_info info.
Hypothesis DP : distinct_priorities info.
Hypothesis SE : spin_execution info E.
Hypothesis PO : priority_order rp info E.
Hypothesis HI : nth_error info i = Some ti.
Hypothesis HN : Z.of_nat n <= Z.of_N (ti_response ti).
Hypothesis HR : (ti_response ti <= ti_period ti)%N.
Let c := ti_cluster ti.
Let p := ti_prio ti.
Hypothesis HQ : quiet info E c p ts.
Hypothesis HB : busy info E c p ts (ts + Z.of_nat n).
Hypothesis HO : on_time info E d.
Hypothesis HD : ts + Z.of_nat n <= d.

Lemma rp_req q a tx r : nth_error info (cr_task a) = Some tx -> In r (requests_for tx q) -> get_request_priority rp r = rp (cr_task a) q.
Proof.
  clear DP SE PO HI HN HR HQ HB HO HD. intros X R. apply in_requests_for in R. destruct R as [RT [_ RQ]]. unfold get_request_priority. rewrite RT, RQ. destruct (wf_nth info _ tx WF X) as [-> _]. reflexivity.
Qed.

(** the requests [sel] are counted with the wait-time bound, the others are in [L2] *)
Lemma wait_limited_sel q b tb w t sel extra L2 : In b (x_tr E q) -> global_resource info q -> nth_error info (cr_task b) = Some tb -> ti_cluster tb = c ->
  (w = extra + delay_by_higher info ti q sel w + 1)%N ->
  (forall a u tx r, In a (x_tr E q) -> cr_issue b <= u < cr_start b -> u < ts + Z.of_nat n -> cr_start a <= u < cr_end a -> nth_error info (cr_task a) = Some tx -> ti_cluster tx <> c -> In r (requests_for tx q) -> sel r = true \/ In a L2) ->
  (forall a, In a L2 -> cr_start a <= cr_end a) -> (N.of_nat (nsum (fun a => Z.to_nat (cr_end a - cr_start a)) L2) <= extra)%N ->
  cr_issue b <= t < cr_start b -> t < ts + Z.of_nat n -> t < cr_issue b + Z.of_N w.
Proof.
  clear DP HQ HB PO HI HN. intros B G TB CB FIX SPLIT ORD EXT WB TW. destruct (Z.lt_ge_cases t (cr_issue b + Z.of_N w)) as [X|X]; [exact X|exfalso]. set (s := cr_issue b) in *.
  set (hs := fun tx => filter (overlaps (ti_id tx) s w (ts + Z.of_nat n)) (x_tr E q)).
  set (L := concat (map (fun r => hs (rb_task r)) (filter sel (remote_requests_for info ti q)))).
  assert (COV : (count (fun _ => true) s (N.to_nat w) <= nsum (fun a => count (holding a) s (N.to_nat w)) (L ++ L2))%nat).
  { apply count_cover. intros u U _. destruct (se_busy _ _ SE q b u B G ltac:(fold s; lia)) as [a [A TA]]. exists a. split; [|apply holding_iff; exact TA].
    destruct (se_spec _ _ SE q a A) as [tx [r [TX [R [Q _]]]]]. destruct (wf_nth info _ tx WF TX) as [ID IN].
    assert (NC : ti_cluster tx <> c) by (apply (holder_remote info ti E n SE HR q a b u tx tb A B G TB CB); [fold s; lia|exact TA|exact TX]).
    assert (RF : In (RB tx r) (requests_for tx q)) by (apply in_requests_for; cbn; auto).
    apply in_or_app. destruct (SPLIT a u tx (RB tx r) A ltac:(lia) ltac:(lia) TA TX NC RF) as [SL|I2]; [left|right; exact I2].
    apply in_concat. exists (hs tx). split.
    - apply in_map_iff. exists (RB tx r). split; [reflexivity|]. apply filter_In. split; [|exact SL]. apply in_remote_requests. cbn. auto.
    - apply filter_In. split; [exact A|]. unfold overlaps. rewrite ID, Nat.eqb_refl. cbn [andb]. apply Z.ltb_lt. lia. }
  assert (ALL : count (fun _ => true) s (N.to_nat w) = N.to_nat w).
  { pose proof (count_split (fun _ => true) (N.to_nat w) s) as S. rewrite (count_false (fun _ => negb true)) in S by reflexivity. lia. }
  assert (HOLD : forall a, cr_start a <= cr_end a -> (count (holding a) s (N.to_nat w) <= Z.to_nat (cr_end a - cr_start a))%nat).
  { intros a OR. pose proof (count_window (holding a) s (N.to_nat w) (cr_start a) (cr_end a) OR (fun t _ H => proj1 (holding_iff a t) H)) as CW.
    pose proof (count_le_n (holding a) (Z.to_nat (cr_end a - cr_start a)) (cr_start a)). lia. }
  assert (DEM : (N.of_nat (nsum (fun a => count (holding a) s (N.to_nat w)) L) <= delay_by_higher info ti q sel w)%N).
  { unfold L, delay_by_higher. rewrite nsum_concat. apply nsum_sum_over. intros r R. apply filter_In in R. destruct R as [R _]. apply in_remote_requests in R. destruct R as [TX [NC [RI RQ]]]. set (tx := rb_task r) in *.
    pose proof (wf_id info tx WF TX) as X1.
    assert (NC' : (nsum (fun a => count (holding a) s (N.to_nat w)) (hs tx) <= length (hs tx) * N.to_nat (rb_len r))%nat).
    { apply nsum_const. intros a A. apply filter_In in A. destruct A as [A O]. apply andb_true_iff in O. destruct O as [O _]. apply Nat.eqb_eq in O. rewrite <- O in X1.
      pose proof (hold_len info ti E n WF SE HR q a tx (rb_req r) A G X1 RI RQ) as HL. pose proof (se_times _ _ SE q a A). pose proof (HOLD a ltac:(lia)). unfold rb_len. lia. }
    pose proof (overlaps_length info ti E ts n d WF SE HR HO HD (ti_id tx) q tx (rb_req r) s w X1 RI RQ) as OL. fold (hs tx) in OL. replace (RB tx (rb_req r)) with r in OL by (unfold tx; destruct r; reflexivity).
    apply Nat2N_le in NC'. rewrite Nat2N.inj_mul, N2Nat.id in NC'. eapply N.le_trans; [exact NC'|]. rewrite N.mul_comm. apply N.mul_le_mono_l. exact OL. }
  assert (DEM2 : (nsum (fun a => count (holding a) s (N.to_nat w)) L2 <= nsum (fun a => Z.to_nat (cr_end a - cr_start a)) L2)%nat) by (apply nsum_le; intros a A; apply HOLD, ORD; exact A).
  rewrite nsum_app in COV. lia.
Qed.

(** a holder of lower locking priority has the lock already when the request is issued *)
Lemma lower_holds q a b t : In a (x_tr E q) -> In b (x_tr E q) -> global_resource info q -> (rp (cr_task b) q < rp (cr_task a) q)%N ->
  cr_issue b <= t < cr_start b -> cr_start a <= t < cr_end a -> cr_start a <= cr_issue b < cr_end a.
Proof.
  clear DP HQ HB HI HN HO HD. intros A B G L TB TA. split; [|lia]. destruct (Z.le_gt_cases (cr_start a) (cr_issue b)) as [X|X]; [exact X|].
  pose proof (PO q a b G A B ltac:(lia) ltac:(lia)). lia.
Qed.

Lemma holders_eq q a a' t : In a (x_tr E q) -> In a' (x_tr E q) -> global_resource info q -> cr_start a <= t < cr_end a -> cr_start a' <= t < cr_end a' -> a = a'.
Proof.
  clear DP HQ HB HI HN HO HD PO. intros A A' G TA TA'. destruct (ForallOrdPairs_In (se_exclusive _ _ SE q G) a a' A A') as [X|[X|X]]; [exact X|lia|lia].
Qed.

Definition lower_list (q : nat) (b : creq) : list creq :=
  filter (fun a => (rp (cr_task b) q <? rp (cr_task a) q)%N && (cr_start a <=? cr_issue b) && (cr_issue b <? cr_end a)) (x_tr E q).

Lemma in_lower_list q b a : In a (lower_list q b) <-> In a (x_tr E q) /\ (rp (cr_task b) q < rp (cr_task a) q)%N /\ cr_start a <= cr_issue b < cr_end a.
Proof. clear. unfold lower_list. rewrite filter_In, !andb_true_iff, N.ltb_lt, Z.leb_le, Z.ltb_lt. tauto. Qed.

(** ** One locking priority per processor and resource *)
Section Uniform.
Variables (q : nat) (pi : N).
Hypothesis GL : global_resource info q.
Hypothesis UNI : uniform_priority rp info c q pi.

Lemma local_prio t r : In t info -> ti_cluster t = c -> In r (requests_for t q) -> get_request_priority rp r = pi.
Proof.
  clear DP SE PO HI HN HR HQ HB HO HD. intros T C R. apply in_requests_for in R. destruct R as [RT [RI RQ]]. unfold get_request_priority. rewrite RT, RQ. apply UNI; [|exact C]. split; [exact T|]. exists (rb_req r). auto.
Qed.

Lemma own_prio : get_min_prio_of rp ti q = pi \/ (requests_for ti q = [] /\ get_min_prio_of rp ti q = 0%N).
Proof.
  clear DP SE PO HN HR HQ HB HO HD. unfold get_min_prio_of. apply max_over_const. intros r R. apply (local_prio ti); [eapply nth_error_In; exact HI|reflexivity|exact R].
Qed.

Lemma min_prio_cases LP : (local_requests_for info ti q LP = [] /\ get_min_prio rp info ti q LP = N.of_nat (length info)) \/ (local_requests_for info ti q LP <> [] /\ get_min_prio rp info ti q LP = pi).
Proof.
  clear DP SE PO HN HR HQ HB HO HD. unfold get_min_prio.
  assert (H : forall r, In r (local_requests_for info ti q LP) -> get_request_priority rp r = pi).
  { intros r R. apply in_local_requests in R. destruct R as [R1 [R2 [_ [R4 R5]]]]. apply (local_prio (rb_task r)); [exact R1|exact R2|apply in_requests_for; auto]. }
  destruct (local_requests_for info ti q LP) as [|r l] eqn:EQ; [left; auto|right]. split; [discriminate|]. destruct (max_over_const (get_request_priority rp) (r :: l) pi H) as [X|[X _]]; [exact X|discriminate].
Qed.

Lemma waiting_prio b tb : In b (x_tr E q) -> nth_error info (cr_task b) = Some tb -> ti_cluster tb = c -> rp (cr_task b) q = pi.
Proof.
  clear DP PO HI HN HR HQ HB HO HD. intros B TB CB. destruct (se_spec _ _ SE q b B) as [t [r [X [R [Q _]]]]]. rewrite TB in X. injection X as <-. destruct (wf_nth info _ tb WF TB) as [ID IN].
  rewrite <- ID. apply UNI; [|exact CB]. split; [exact IN|]. exists r. auto.
Qed.

(** the one lower-priority request takes at most LP_Ti *)
Lemma lower_list_len b tb : In b (x_tr E q) -> nth_error info (cr_task b) = Some tb -> ti_cluster tb = c -> cr_issue b < cr_start b ->
  (N.of_nat (nsum (fun a => Z.to_nat (cr_end a - cr_start a)) (lower_list q b)) <= longest_lower rp info ti q)%N.
Proof.
  clear DP PO HN HQ HB HO HD. intros B TB CB W.
  assert (L1 : (length (lower_list q b) <= 1)%nat).
  { apply length_le1; [apply NoDup_filter, (tr_nodup info); exact SE|]. intros a a' A A'. apply in_lower_list in A. apply in_lower_list in A'. apply (holders_eq q a a' (cr_issue b)); tauto. }
  assert (L2 : (nsum (fun a => Z.to_nat (cr_end a - cr_start a)) (lower_list q b) <= length (lower_list q b) * N.to_nat (longest_lower rp info ti q))%nat).
  { apply nsum_const. intros a A. apply in_lower_list in A. destruct A as [A [L T]]. destruct (se_spec _ _ SE q a A) as [tx [r [TX [R [Q _]]]]].
    pose proof (hold_len info ti E n WF SE HR q a tx r A GL TX R Q) as HL. destruct (wf_nth info _ tx WF TX) as [ID IN].
    assert (RF : In (RB tx r) (requests_for tx q)) by (apply in_requests_for; cbn; auto).
    assert (NC : ti_cluster tx <> c) by (apply (holder_remote info ti E n SE HR q a b (cr_issue b) tx tb A B GL TB CB); [lia|exact T|exact TX]).
    pose proof (rp_req q a tx (RB tx r) TX RF) as PR. pose proof (waiting_prio b tb B TB CB) as PB.
    assert (M : (rb_len (RB tx r) <= longest_lower rp info ti q)%N).
    { apply max_over_ge. apply filter_In. split; [apply in_remote_requests; cbn; auto|]. apply N.ltb_lt. rewrite PR. destruct own_prio as [-> |[_ ->]]; lia. }
    unfold rb_len in M; cbn in M. lia. }
  assert (L3 : (length (lower_list q b) * N.to_nat (longest_lower rp info ti q) <= 1 * N.to_nat (longest_lower rp info ti q))%nat) by (apply Nat.mul_le_mono_r; exact L1). lia.
Qed.

(** waiting for requests of at least the locking priority [lp], which is not above pi *)
Lemma wait_prio_limited b tb w t lp : (pi <= lp)%N -> In b (x_tr E q) -> nth_error info (cr_task b) = Some tb -> ti_cluster tb = c ->
  (w = longest_lower rp info ti q + delay_by_higher info ti q (highereq rp lp) w + 1)%N ->
  cr_issue b <= t < cr_start b -> t < ts + Z.of_nat n -> t < cr_issue b + Z.of_N w.
Proof.
  clear DP HQ HB. intros LP B TB CB FIX W T. apply (wait_limited_sel q b tb w t (highereq rp lp) (longest_lower rp info ti q) (lower_list q b)); try assumption.
  - intros a u tx r A U _ TA TX NC R. pose proof (rp_req q a tx r TX R) as PR. pose proof (waiting_prio b tb B TB CB) as PB.
    destruct (N.le_gt_cases (rp (cr_task a) q) pi) as [X|X]; [left; apply N.leb_le; lia|right].
    apply in_lower_list. split; [exact A|]. split; [lia|]. apply (lower_holds q a b u A B GL); [lia|exact U|exact TA].
  - intros a A. apply in_lower_list in A. lia.
  - apply (lower_list_len b tb B TB CB). lia.
Qed.

Definition limits (w : N) : Prop := forall b a t, waits_for info ti E ts n q b a -> cr_issue b <= t < cr_start b -> t < ts + Z.of_nat n -> t < cr_issue b + Z.of_N w.

Lemma wait_prio_limits LP : (pi <= N.of_nat (length info))%N -> remote_below rp info c q pi false ->
  limits (wait_prio rp info ti q LP) \/ wait_prio rp info ti q LP = ti_response ti.
Proof.
  intros PN RB'. unfold wait_prio. set (lp := get_min_prio rp info ti q LP). assert (LPI : (pi <= lp)%N) by (unfold lp; destruct (min_prio_cases LP) as [[_ ->]|[_ ->]]; lia).
  change (bound_wait_time_prio rp info ti q lp) with (prio_search info ti q (highereq rp lp) (longest_lower rp info ti q)).
  destruct (prio_search info ti q (highereq rp lp) (longest_lower rp info ti q)) as [w| |] eqn:PS; cbn [or_response].
  - left. destruct (prio_search_cases _ _ _ _ _ _ PS) as [[-> Z0]|FIX].
    + exfalso. destruct RB' as [t [r [T [NC [R [Q [LN [L|[X _]]]]]]]]]; [|discriminate].
      assert (M : (rb_len (RB t r) <= longest_lower rp info ti q)%N).
      { apply max_over_ge. apply filter_In. split; [apply in_remote_requests; cbn; auto|]. apply N.ltb_lt. unfold get_request_priority; cbn [rb_task]. unfold rb_res; cbn [rb_req]. rewrite Q. destruct own_prio as [-> |[_ ->]]; lia. }
      unfold rb_len in M; cbn in M. lia.
    + intros b a t [B [_ [[tb [TB CB]] _]]] TW TN. apply (wait_prio_limited b tb w t lp); assumption.
  - right. reflexivity.
  - destruct (prio_search_terminates info ti q _ _ WF PS).
Qed.

(** Constraints 12, 15, 16 and 18, given a bound on the wait time *)
Lemma filter_requests tx sel : In tx info -> filter sel (requests_for tx q) = [] \/ exists r, requests_for tx q = [r] /\ filter sel (requests_for tx q) = [r].
Proof. clear DP SE PO HI HN HQ HB HO HD. intros TX. destruct (requests_for_cases info ti n WF HR tx q TX) as [->|[r ->]]; [left; reflexivity|]. cbn. destruct (sel r); [right; eauto|left; reflexivity]. Qed.

Lemma direct_hp_holds sel w : (forall b, In b (local_all info ti E ts n q) -> limits w \/ w = ti_response ti \/ forall tx, In tx info -> ti_cluster tx <> c -> filter sel (requests_for tx q) = []) -> direct_hp info ti (assign info ti E ts n) q sel w.
Proof.
  intros LIM tx TX NC. destruct (filter_requests tx sel TX) as [-> |[r [EQ FE]]]; [cbn; apply nq_nonneg|]. rewrite FE.
  assert (RI : In r (requests_for tx q)) by (rewrite EQ; left; reflexivity).
  eapply Qle_trans; [apply (isum_direct info ti E ts n WF SE HR q); intros r' [<-|[]]; apply in_requests_for in RI; apply RI|]. unfold NQ. rewrite <- Zle_Qle.
  pose proof (single_insts info E ts n tx q r TX EQ) as SI. rewrite EQ in SI. rewrite SI, sum_over_one.
  set (l := filter (pos info ti E ts n BLOCKING_DIRECT q) (insts E ts n (ti_id tx) q)).
  assert (M : forall a, In a l -> In a (insts E ts n (ti_id tx) q) /\ exists b, In b (local_all info ti E ts n q) /\ waits_for info ti E ts n q b a).
  { intros a A. apply filter_In in A. destruct A as [A P]. split; [exact A|]. apply (direct_waits info i ti E ts n WF DP SE HI HR HQ q a P). }
  assert (ND : NoDup l) by (apply NoDup_filter, NoDup_filter, (tr_nodup info); exact SE).
  assert (L : (N.of_nat (length l) <= get_max_num_requests r w * N.of_nat (length (local_all info ti E ts n q)))%N).
  { destruct l as [|a0 l0] eqn:EL; [cbn; lia|]. rewrite <- EL in *. destruct (M a0) as [_ [b0 [B0 _]]]; [rewrite EL; left; reflexivity|]. destruct (LIM b0 B0) as [LIM'|[EW|F0]]; [| |rewrite F0 in FE by assumption; discriminate].
    - apply (wait_count_limited info ti E ts n d WF SE HR HO HD q tx r l _ w TX RI ND M LIM').
    - rewrite EW. apply (wait_count_response info ti E ts n d WF SE HN HR HO HD q tx r l _ TX RI ND M). }
  pose proof (local_total info i ti E ts n WF SE HI HN HR q) as LT. fold (local_all info ti E ts n q) in LT.
  assert (L' : (N.of_nat (length l) <= get_max_num_requests r w * count_local_hp_reqs info ti q)%N) by (eapply N.le_trans; [exact L|apply N.mul_le_mono_l; exact LT]). lia.
Qed.

Lemma arrival_hp_holds sel factor w : (forall b, blocker info ti E ts q b -> ((limits w \/ w = ti_response ti) /\ (1 <= factor)%N) \/ forall tx, In tx info -> ti_cluster tx <> c -> filter sel (requests_for tx q) = []) ->
  arrival_hp info ti (assign info ti E ts n) q sel factor w.
Proof.
  intros LIM tx TX NC. destruct (filter_requests tx sel TX) as [-> |[r [EQ FE]]].
  { cbn. change (assign info ti E ts n (arrival_enabled q)) with (if enabled info ti E ts n q then 1%Q else 0%Q). destruct (enabled info ti E ts n q); discriminate. }
  rewrite FE. assert (RI : In r (requests_for tx q)) by (rewrite EQ; left; reflexivity). pose proof (wf_id info tx WF TX) as X.
  eapply Qle_trans; [apply (isum_assign info ti E ts n HR _ q); [right; reflexivity|intros r' [<-|[]]; apply in_requests_for in RI; apply RI]|].
  change (assign info ti E ts n (arrival_enabled q)) with (if enabled info ti E ts n q then 1%Q else 0%Q).
  pose proof (single_insts info E ts n tx q r TX EQ) as SI. rewrite EQ in SI. rewrite SI, sum_over_one.
  destruct (enabled info ti E ts n q) eqn:EN.
  - destruct (enabled_blocker info ti E ts n SE HR HB q EN) as [b0 B0]. destruct (LIM b0 B0) as [[LIM' F1]|F0]; [|rewrite F0 in FE by assumption; discriminate].
    eapply Qle_trans; [apply (qsum_pos _ (pos info ti E ts n BLOCKING_ARRIVAL q))|].
    + intros a A. apply part_le1; [exact WF|exact SE|exact HR|]. apply in_insts in A. apply A.
    + intros a _ P0. apply part_pos; assumption.
    + rewrite Qmult_1_r. unfold NQ. rewrite <- Zle_Qle.
      set (l := filter (pos info ti E ts n BLOCKING_ARRIVAL q) (insts E ts n (ti_id tx) q)).
      assert (M : forall a, In a l -> In a (insts E ts n (ti_id tx) q) /\ exists b, In b [b0] /\ waits_for info ti E ts n q b a).
      { intros a A. apply filter_In in A. destruct A as [A P]. split; [exact A|]. apply in_insts in A. destruct A as [A [TT _]].
        exists b0. split; [left; reflexivity|]. apply (arrival_waits info ti E ts n SE HR HB q a tx b0 A); [rewrite TT; exact X|exact NC|exact P|exact B0]. }
      assert (ND : NoDup l) by (apply NoDup_filter, NoDup_filter, (tr_nodup info); exact SE).
      assert (L : (N.of_nat (length l) <= get_max_num_requests r w * N.of_nat (length [b0]))%N).
      { destruct LIM' as [LIM'|EW].
        - apply (wait_count_limited info ti E ts n d WF SE HR HO HD q tx r l _ w TX RI ND M LIM').
        - rewrite EW. apply (wait_count_response info ti E ts n d WF SE HN HR HO HD q tx r l _ TX RI ND M). }
      cbn [length] in L. assert (L' : (N.of_nat (length l) <= get_max_num_requests r w * factor)%N) by (eapply N.le_trans; [exact L|apply N.mul_le_mono_l; cbn; lia]). lia.
  - rewrite qsum_zero; [rewrite Qmult_0_r; apply Qle_refl|]. intros a A. apply part_pos; [exact HR|]. destruct (pos info ti E ts n BLOCKING_ARRIVAL q a) eqn:P; [|reflexivity].
    exfalso. assert (Y : enabled info ti E ts n q = true); [|congruence]. apply existsb_exists. exists a. split; [apply in_insts in A; apply A|exact P].
Qed.

(** Constraints 13 and 14 *)
Lemma lower_unique lp b a a' : (pi <= lp)%N -> waits_for info ti E ts n q b a -> waits_for info ti E ts n q b a' -> In a (x_tr E q) -> In a' (x_tr E q) ->
  (lp < rp (cr_task a) q)%N -> (lp < rp (cr_task a') q)%N -> a = a'.
Proof.
  clear DP HQ HB HO HI HN HD. intros PL [B [_ [[tb [TB CB]] [t [T [TW TA]]]]]] [_ [_ [_ [t' [T' [TW' TA']]]]]] A A' L L'. pose proof (waiting_prio b tb B TB CB) as PB.
  apply (holders_eq q a a' (cr_issue b) A A' GL); [apply (lower_holds q a b t); try assumption; lia|apply (lower_holds q a' b t'); try assumption; lia].
Qed.

Lemma remote_filtered_nodup sel : NoDup (map (fun r => ti_id (rb_task r)) (filter sel (remote_requests_for info ti q))).
Proof. clear DP SE PO HI HN HR HQ HB HO HD. apply nodup_map_filter. unfold remote_requests_for, remote_tasks. apply tasks_nodup. exact WF. Qed.

Lemma remote_inst sel a : In a (all_insts E ts n q (filter sel (remote_requests_for info ti q))) -> In a (x_tr E q) /\ exists tx r, nth_error info (cr_task a) = Some tx /\ ti_cluster tx <> c /\ In r (requests_for tx q) /\ sel r = true.
Proof.
  clear DP SE PO HI HN HQ HB HO HD. intros A. apply in_all_insts in A. destruct A as [A [r [R TT]]]. apply filter_In in R. destruct R as [R S]. apply in_remote_requests in R. destruct R as [R1 [R2 [R3 R4]]].
  split; [exact A|]. exists (rb_task r), r. rewrite TT. split; [apply (wf_id info _ WF R1)|]. split; [exact R2|]. split; [apply in_requests_for; auto|exact S].
Qed.

Lemma lower_holds_ok : (pi <= N.of_nat (length info))%N -> lower_ok rp info ti (assign info ti E ts n) q.
Proof.
  intros PN. unfold lower_ok. set (lp := get_min_prio rp info ti q false). assert (LPI : (pi <= lp)%N) by (unfold lp; destruct (min_prio_cases false) as [[_ ->]|[_ ->]]; lia).
  set (rs := filter (lower rp lp) (remote_requests_for info ti q)). assert (RQ : forall r, In r rs -> rb_res r = q) by (intros r R; apply filter_In in R; destruct R as [R _]; apply in_remote_requests in R; apply R).
  assert (LOW : forall a, In a (all_insts E ts n q rs) -> In a (x_tr E q) /\ (lp < rp (cr_task a) q)%N /\ exists tx, nth_error info (cr_task a) = Some tx /\ ti_cluster tx <> c).
  { intros a A. apply remote_inst in A. destruct A as [A [tx [r [TX [NC [R S]]]]]]. split; [exact A|]. split; [|eauto]. rewrite <- (rp_req q a tx r TX R). apply N.ltb_lt. exact S. }
  split.
  - eapply Qle_trans; [apply (isum_direct info ti E ts n WF SE HR q); exact RQ|]. unfold NQ. rewrite <- Zle_Qle.
    set (l := filter (pos info ti E ts n BLOCKING_DIRECT q) (all_insts E ts n q rs)).
    assert (LW : (length l <= length (local_all info ti E ts n q))%nat).
    { apply (rel_inj (fun a b => waits_for info ti E ts n q b a)).
      - apply NoDup_filter. apply (all_insts_nodup info E ts n SE). apply remote_filtered_nodup.
      - intros a A. apply filter_In in A. destruct A as [_ P]. apply (direct_waits info i ti E ts n WF DP SE HI HR HQ q a P).
      - intros a a' b A A' _ WA WA'. apply filter_In in A. apply filter_In in A'. destruct (LOW a (proj1 A)) as [A1 [A2 _]], (LOW a' (proj1 A')) as [A1' [A2' _]]. apply (lower_unique lp b a a'); assumption. }
    pose proof (local_total info i ti E ts n WF SE HI HN HR q) as LT. fold (local_all info ti E ts n q) in LT. lia.
  - apply (arrival_one info ti E ts n WF SE HR q rs); [apply remote_filtered_nodup|exact RQ|].
    intros a a' A A' P P'. destruct (LOW a A) as [A1 [A2 [tx [TX NC]]]], (LOW a' A') as [A1' [A2' [tx' [TX' NC']]]].
    assert (EN : enabled info ti E ts n q = true) by (apply existsb_exists; exists a; auto). destruct (enabled_blocker info ti E ts n SE HR HB q EN) as [b0 B0].
    apply (lower_unique lp b0 a a'); try assumption; [apply (arrival_waits info ti E ts n SE HR HB q a tx b0); assumption|apply (arrival_waits info ti E ts n SE HR HB q a' tx' b0); assumption].
Qed.

(** ** Requests of the same locking priority are served in FIFO order *)
Section Equals.
Hypothesis FE : fifo_among_equals rp info E.

Definition on_cluster (c' : nat) (a : creq) : bool := match nth_error info (cr_task a) with Some k => Nat.eqb (ti_cluster k) c' | None => false end.
Definition same_list (b : creq) (c' : nat) : list creq :=
  filter (fun a => (rp (cr_task a) q =? rp (cr_task b) q)%N && on_cluster c' a && (cr_issue a <=? cr_issue b) && (cr_issue b <? cr_end a)) (x_tr E q).

Lemma in_same_list b c' a : In a (same_list b c') <-> In a (x_tr E q) /\ rp (cr_task a) q = rp (cr_task b) q /\ (exists k, nth_error info (cr_task a) = Some k /\ ti_cluster k = c') /\ cr_issue a <= cr_issue b < cr_end a.
Proof.
  clear. unfold same_list, on_cluster. rewrite filter_In, !andb_true_iff, N.eqb_eq, Z.leb_le, Z.ltb_lt. split.
  - intros [A [[[A1 A2] A3] A4]]. destruct (nth_error info (cr_task a)) as [k|]; [|discriminate]. apply Nat.eqb_eq in A2. repeat split; auto. exists k. auto.
  - intros [A [A1 [[k [-> A2]] A3]]]. rewrite A2, Nat.eqb_refl. tauto.
Qed.

Lemma same_issued a b t : In a (x_tr E q) -> In b (x_tr E q) -> rp (cr_task a) q = rp (cr_task b) q -> cr_issue b <= t < cr_start b -> cr_start a <= t < cr_end a -> cr_issue a <= cr_issue b < cr_end a.
Proof.
  clear DP HQ HB HI HN HO HD PO. intros A B P TB TA. split; [|lia]. destruct (Z.le_gt_cases (cr_issue a) (cr_issue b)) as [X|X]; [exact X|]. pose proof (FE q b a GL B A (eq_sym P) X). pose proof (se_times _ _ SE q b B). lia.
Qed.

Lemma same_unique a a' b tx tx' : In a (x_tr E q) -> In a' (x_tr E q) -> nth_error info (cr_task a) = Some tx -> nth_error info (cr_task a') = Some tx' -> ti_cluster tx = ti_cluster tx' ->
  cr_issue a <= cr_issue b < cr_end a -> cr_issue a' <= cr_issue b < cr_end a' -> a = a'.
Proof.
  clear DP HQ HB HI HN HO HD PO FE. intros A A' X X' C T T'.
  assert (R1 : runs E info (jobof a) (cr_issue b) = true) by (apply (se_nonpreemptive _ _ SE q a); [exact A|exact GL|lia]).
  assert (R2 : runs E info (jobof a') (cr_issue b) = true) by (apply (se_nonpreemptive _ _ SE q a'); [exact A'|exact GL|lia]).
  apply (runs_iff E info (jobof a) _ tx X) in R1. apply (runs_iff E info (jobof a') _ tx' X') in R2. rewrite C, R2 in R1. injection R1 as R1 R3.
  apply (one_request info E SE q q a a' (cr_issue b) A A'); [unfold jobof; congruence|lia|lia].
Qed.

Lemma same_list_len b tb : In b (x_tr E q) -> nth_error info (cr_task b) = Some tb -> ti_cluster tb = c -> get_min_prio_of rp ti q = pi ->
  (N.of_nat (nsum (fun a => Z.to_nat (cr_end a - cr_start a)) (concat (map (same_list b) (other_clusters info ti)))) <= get_max_CS_per_cluster rp info ti q (get_min_prio_of rp ti q))%N.
Proof.
  clear DP PO HN HQ HB HO HD FE. intros B TB CB OWN. rewrite nsum_concat. unfold get_max_CS_per_cluster. apply nsum_sum_over. intros c' C'. rewrite OWN. set (m := max_over _ _).
  assert (L1 : (length (same_list b c') <= 1)%nat).
  { apply length_le1; [apply NoDup_filter, (tr_nodup info); exact SE|]. intros a a' A A'. apply in_same_list in A. apply in_same_list in A'. destruct A as [A [_ [[k [K KC]] T]]], A' as [A' [_ [[k' [K' KC']] T']]]. apply (same_unique a a' b k k'); congruence || assumption. }
  assert (L2 : (nsum (fun a => Z.to_nat (cr_end a - cr_start a)) (same_list b c') <= length (same_list b c') * N.to_nat m)%nat).
  { apply nsum_const. intros a A. apply in_same_list in A. destruct A as [A [P [[tx [TX TC]] T]]]. destruct (se_spec _ _ SE q a A) as [tx' [r [TX' [R [Q _]]]]]. rewrite TX in TX'. injection TX' as <-.
    pose proof (hold_len info ti E n WF SE HR q a tx r A GL TX R Q) as HL. destruct (wf_nth info _ tx WF TX) as [ID IN].
    assert (RF : In (RB tx r) (requests_for tx q)) by (apply in_requests_for; cbn; auto). pose proof (rp_req q a tx (RB tx r) TX RF) as PR. pose proof (waiting_prio b tb B TB CB) as PB.
    assert (M : (rb_len (RB tx r) <= m)%N).
    { apply max_over_ge. apply filter_In. split; [apply in_cluster_requests; cbn; auto|]. apply N.eqb_eq. congruence. }
    unfold rb_len in M; cbn in M. lia. }
  assert (L3 : (length (same_list b c') * N.to_nat m <= 1 * N.to_nat m)%nat) by (apply Nat.mul_le_mono_r; exact L1). lia.
Qed.

Lemma wait_fifo_limited b tb w t lp : (pi <= lp)%N -> get_min_prio_of rp ti q = pi -> In b (x_tr E q) -> nth_error info (cr_task b) = Some tb -> ti_cluster tb = c ->
  (w = longest_lower rp info ti q + get_max_CS_per_cluster rp info ti q (get_min_prio_of rp ti q) + delay_by_higher info ti q (higher rp lp) w + 1)%N ->
  cr_issue b <= t < cr_start b -> t < ts + Z.of_nat n -> t < cr_issue b + Z.of_N w.
Proof.
  clear DP HQ HB. intros LP OWN B TB CB FIX W T.
  apply (wait_limited_sel q b tb w t (higher rp lp) (longest_lower rp info ti q + get_max_CS_per_cluster rp info ti q (get_min_prio_of rp ti q)) (lower_list q b ++ concat (map (same_list b) (other_clusters info ti)))); try assumption.
  - intros a u tx r A U _ TA TX NC R. pose proof (rp_req q a tx r TX R) as PR. pose proof (waiting_prio b tb B TB CB) as PB.
    destruct (N.lt_total (rp (cr_task a) q) pi) as [X|[X|X]]; [left; apply N.ltb_lt; lia| |]; right; apply in_or_app; [right|left].
    + apply in_concat. exists (same_list b (ti_cluster tx)). split; [apply in_map; apply in_other_clusters; [apply (wf_nth info _ tx WF TX)|exact NC]|].
      apply in_same_list. split; [exact A|]. split; [congruence|]. split; [eauto|]. apply (same_issued a b u A B); [congruence|exact U|exact TA].
    + apply in_lower_list. split; [exact A|]. split; [lia|]. apply (lower_holds q a b u A B GL); [lia|exact U|exact TA].
  - intros a A. apply in_app_or in A. destruct A as [A|A]; [apply in_lower_list in A; lia|]. apply in_concat in A. destruct A as [l [A1 A2]]. apply in_map_iff in A1. destruct A1 as [c' [<- _]]. apply in_same_list in A2. destruct A2 as [A2 _]. pose proof (se_times _ _ SE q a A2). lia.
  - rewrite nsum_app. pose proof (lower_list_len b tb B TB CB ltac:(lia)). pose proof (same_list_len b tb B TB CB OWN). lia.
Qed.

Lemma wait_fifo_limits LP : (pi <= N.of_nat (length info))%N -> requests_for ti q <> [] -> remote_below rp info c q pi true ->
  limits (wait_fifo rp info ti q LP) \/ wait_fifo rp info ti q LP = ti_response ti.
Proof.
  intros PN OR RB'. unfold wait_fifo. set (lp := get_min_prio rp info ti q LP). assert (LPI : (pi <= lp)%N) by (unfold lp; destruct (min_prio_cases LP) as [[_ ->]|[_ ->]]; lia).
  assert (OWN : get_min_prio_of rp ti q = pi) by (destruct own_prio as [X|[X _]]; [exact X|contradiction]).
  set (s := (longest_lower rp info ti q + get_max_CS_per_cluster rp info ti q (get_min_prio_of rp ti q))%N).
  change (bound_wait_time_prio_fifo rp info ti q lp) with (prio_search info ti q (higher rp lp) s).
  destruct (prio_search info ti q (higher rp lp) s) as [w| |] eqn:PS; cbn [or_response].
  - left. destruct (prio_search_cases _ _ _ _ _ _ PS) as [[-> Z0]|FIX].
    + exfalso. destruct RB' as [t [r [T [NC [R [Q [LN L]]]]]]]. assert (RP : get_request_priority rp (RB t r) = rp (ti_id t) q) by (unfold get_request_priority, rb_res; cbn; congruence).
      destruct L as [L|[_ L]].
      * assert (M : (rb_len (RB t r) <= longest_lower rp info ti q)%N).
        { apply max_over_ge. apply filter_In. split; [apply in_remote_requests; cbn; auto|]. apply N.ltb_lt. rewrite RP, OWN. exact L. }
        unfold rb_len in M; cbn in M. unfold s in Z0. lia.
      * assert (M : (rb_len (RB t r) <= get_max_CS_per_cluster rp info ti q pi)%N).
        { unfold get_max_CS_per_cluster. eapply N.le_trans; [|apply (sum_over_in _ (other_clusters info ti) (ti_cluster t)); apply in_other_clusters; assumption].
          apply max_over_ge. apply filter_In. split; [apply in_cluster_requests; cbn; auto|]. apply N.eqb_eq. rewrite RP. exact L. }
        unfold rb_len in M; cbn in M. unfold s in Z0. rewrite OWN in Z0. lia.
    + intros b a t [B [_ [[tb [TB CB]] _]]] TW TN. apply (wait_fifo_limited b tb w t lp); assumption.
  - right. reflexivity.
  - destruct (prio_search_terminates info ti q _ _ WF PS).
Qed.

Lemma local_all_min b : In b (local_all info ti E ts n q) -> get_min_prio rp info ti q false = pi.
Proof.
  intros B. destruct (min_prio_cases false) as [[X _]|[_ X]]; [exfalso|exact X]. unfold local_all in B. apply in_concat in B. destruct B as [l [B1 B2]]. apply in_map_iff in B1. destruct B1 as [th [<- B1]]. apply in_local_reqs in B2. destruct B2 as [B2 [B3 _]].
  assert (TH : In th info /\ ti_cluster th = c /\ (ti_prio th <= p)%N).
  { destruct B1 as [<-|B1]; [split; [eapply nth_error_In; exact HI|split; [reflexivity|apply N.le_refl]]|]. apply filter_In in B1. destruct B1 as [B1 B4]. apply andb_true_iff in B4. rewrite Nat.eqb_eq, N.ltb_lt in B4. unfold c, p. split; [exact B1|]. split; [apply B4|lia]. }
  destruct TH as [T1 [T2 T3]]. destruct (se_spec _ _ SE q b B2) as [t [r [K [R [Q _]]]]]. rewrite B3, (wf_id info th WF T1) in K. injection K as <-.
  assert (I : In (RB th r) (local_requests_for info ti q false)) by (apply in_local_requests; cbn; auto). rewrite X in I. destruct I.
Qed.

Lemma blocker_min b : blocker info ti E ts q b -> get_min_prio rp info ti q true = pi.
Proof.
  intros [[B _] [LO [[k [K C]] _]]]. destruct (min_prio_cases true) as [[X _]|[_ X]]; [exfalso|exact X]. unfold low in LO. cbn [jobof fst] in LO. rewrite K in LO. apply N.ltb_lt in LO.
  destruct (se_spec _ _ SE q b B) as [t [r [K' [R [Q _]]]]]. rewrite K in K'. injection K' as <-.
  assert (I : In (RB k r) (local_requests_for info ti q true)) by (apply in_local_requests; cbn; repeat split; auto; apply (wf_nth info _ k WF K)). rewrite X in I. destruct I.
Qed.

Lemma cluster_inst sel c' a : In a (all_insts E ts n q (filter sel (cluster_requests_for info c' q))) -> In a (x_tr E q) /\ exists tx r, nth_error info (cr_task a) = Some tx /\ ti_cluster tx = c' /\ In r (requests_for tx q) /\ sel r = true.
Proof.
  clear DP SE PO HI HN HQ HB HO HD FE. intros A. apply in_all_insts in A. destruct A as [A [r [R TT]]]. apply filter_In in R. destruct R as [R S]. apply in_cluster_requests in R. destruct R as [R1 [R2 [R3 R4]]].
  split; [exact A|]. exists (rb_task r), r. rewrite TT. split; [apply (wf_id info _ WF R1)|]. split; [exact R2|]. split; [apply in_requests_for; auto|exact S].
Qed.

Lemma same_waits_unique b a a' tx tx' : waits_for info ti E ts n q b a -> waits_for info ti E ts n q b a' -> In a (x_tr E q) -> In a' (x_tr E q) ->
  nth_error info (cr_task a) = Some tx -> nth_error info (cr_task a') = Some tx' -> ti_cluster tx = ti_cluster tx' -> rp (cr_task a) q = pi -> rp (cr_task a') q = pi -> a = a'.
Proof.
  intros [B [_ [[tb [TB CB]] [t [T [TW TA]]]]]] [_ [_ [_ [t' [T' [TW' TA']]]]]] A A' X X' C L L'. pose proof (waiting_prio b tb B TB CB) as PB.
  apply (same_unique a a' b tx tx' A A' X X' C); [apply (same_issued a b t)|apply (same_issued a' b t')]; congruence || assumption.
Qed.

Lemma cluster_filtered_nodup sel c' : NoDup (map (fun r => ti_id (rb_task r)) (filter sel (cluster_requests_for info c' q))).
Proof. clear DP SE PO HI HN HR HQ HB HO HD FE. apply nodup_map_filter. unfold cluster_requests_for. rewrite split_by_cluster_nth. apply tasks_nodup. exact WF. Qed.

Lemma same_direct c' : c' <> c -> (isum (assign info ti E ts n) ti BLOCKING_DIRECT (filter (same rp (get_min_prio rp info ti q false)) (cluster_requests_for info c' q)) <= NQ (count_local_hp_reqs info ti q))%Q.
Proof.
  intros NC. set (rs := filter _ _). assert (RQ : forall r, In r rs -> rb_res r = q) by (intros r R; apply filter_In in R; destruct R as [R _]; apply in_cluster_requests in R; apply R).
  eapply Qle_trans; [apply (isum_direct info ti E ts n WF SE HR q); exact RQ|]. unfold NQ. rewrite <- Zle_Qle.
  set (l := filter (pos info ti E ts n BLOCKING_DIRECT q) (all_insts E ts n q rs)).
  assert (LW : (length l <= length (local_all info ti E ts n q))%nat).
  { apply (rel_inj (fun a b => waits_for info ti E ts n q b a)).
    - apply NoDup_filter. apply (all_insts_nodup info E ts n SE). apply cluster_filtered_nodup.
    - intros a A. apply filter_In in A. destruct A as [_ P]. apply (direct_waits info i ti E ts n WF DP SE HI HR HQ q a P).
    - intros a a' b A A' IB WA WA'. apply filter_In in A. apply filter_In in A'. destruct A as [A _], A' as [A' _]. apply cluster_inst in A. apply cluster_inst in A'.
      destruct A as [A [tx [r [X [C [R S]]]]]], A' as [A' [tx' [r' [X' [C' [R' S']]]]]]. apply N.eqb_eq in S. apply N.eqb_eq in S'. rewrite (local_all_min b IB) in S, S'. rewrite (rp_req q a tx r X R) in S. rewrite (rp_req q a' tx' r' X' R') in S'.
      apply (same_waits_unique b a a' tx tx'); congruence || assumption. }
  pose proof (local_total info i ti E ts n WF SE HI HN HR q) as LT. fold (local_all info ti E ts n q) in LT. lia.
Qed.

Lemma same_arrival c' : c' <> c -> (isum (assign info ti E ts n) ti BLOCKING_ARRIVAL (filter (same rp (get_min_prio rp info ti q true)) (cluster_requests_for info c' q)) <= assign info ti E ts n (arrival_enabled q))%Q.
Proof.
  intros NC. set (rs := filter _ _). assert (RQ : forall r, In r rs -> rb_res r = q) by (intros r R; apply filter_In in R; destruct R as [R _]; apply in_cluster_requests in R; apply R).
  apply (arrival_one info ti E ts n WF SE HR q rs); [apply cluster_filtered_nodup|exact RQ|]. intros a a' A A' P P'. apply cluster_inst in A. apply cluster_inst in A'.
  destruct A as [A [tx [r [X [C [R S]]]]]], A' as [A' [tx' [r' [X' [C' [R' S']]]]]].
  assert (EN : enabled info ti E ts n q = true) by (apply existsb_exists; exists a; auto). destruct (enabled_blocker info ti E ts n SE HR HB q EN) as [b0 B0].
  apply N.eqb_eq in S. apply N.eqb_eq in S'. rewrite (blocker_min b0 B0) in S, S'. rewrite (rp_req q a tx r X R) in S. rewrite (rp_req q a' tx' r' X' R') in S'.
  apply (same_waits_unique b0 a a' tx tx'); try congruence || assumption; [apply (arrival_waits info ti E ts n SE HR HB q a tx b0); try assumption; rewrite C; exact NC|apply (arrival_waits info ti E ts n SE HR HB q a' tx' b0); try assumption; rewrite C'; exact NC].
Qed.
End Equals.
End Uniform.

(** ** All resources *)
Lemma not_global q tx r : ~ global_resource info q -> In tx info -> ti_cluster tx <> c -> In r (requests_for tx q) -> forall b tb, In b (x_tr E q) -> nth_error info (cr_task b) = Some tb -> ti_cluster tb = c -> False.
Proof.
  intros NG TX NC R b tb B TB CB. apply NG. destruct (se_spec _ _ SE q b B) as [t [s [K [S [Q _]]]]]. rewrite TB in K. injection K as <-. apply in_requests_for in R. destruct R as [RT [RI RQ]].
  exists tx, tb. split; [split; [exact TX|exists (rb_req r); auto]|]. split; [split; [apply (wf_nth info _ tb WF TB)|exists s; auto]|]. rewrite CB. exact NC.
Qed.

Lemma filter_none q tx sel : (forall r, In r (requests_for tx q) -> False) -> filter sel (requests_for tx q) = [].
Proof. clear. intros H. destruct (requests_for tx q) as [|r l]; [reflexivity|]. destruct (H r (or_introl eq_refl)). Qed.

Lemma local_direct_hp q sel w : ~ global_resource info q -> direct_hp info ti (assign info ti E ts n) q sel w.
Proof. intros NG. apply (direct_hp_holds q sel w). intros b _. left. intros b' a t [_ [G _]]. contradiction. Qed.

Lemma local_arrival_hp q sel f w : ~ global_resource info q -> arrival_hp info ti (assign info ti E ts n) q sel f w.
Proof.
  intros NG. apply (arrival_hp_holds q sel f w). intros b [[B _] [_ [[k [K C]] _]]]. right. intros tx TX NC. apply filter_none. intros r R. apply (not_global q tx r NG TX NC R b k B K C).
Qed.

Lemma local_direct_zero q rs : ~ global_resource info q -> (forall r, In r rs -> rb_res r = q) -> (isum (assign info ti E ts n) ti BLOCKING_DIRECT rs <= NQ (count_local_hp_reqs info ti q))%Q.
Proof.
  intros NG RQ. eapply Qle_trans; [apply (isum_direct info ti E ts n WF SE HR q); exact RQ|]. destruct (filter _ _) as [|a l] eqn:EL; [apply nq_nonneg|]. exfalso.
  assert (A : In a (filter (pos info ti E ts n BLOCKING_DIRECT q) (all_insts E ts n q rs))) by (rewrite EL; left; reflexivity). apply filter_In in A. destruct A as [_ P].
  destruct (direct_waits info i ti E ts n WF DP SE HI HR HQ q a P) as [b [_ [_ [G _]]]]. contradiction.
Qed.

Lemma local_arrival_zero q rs : ~ global_resource info q -> NoDup (map (fun r => ti_id (rb_task r)) rs) -> (forall r, In r rs -> rb_res r = q) -> (forall r, In r rs -> In (rb_task r) info /\ ti_cluster (rb_task r) <> c) ->
  (isum (assign info ti E ts n) ti BLOCKING_ARRIVAL rs <= assign info ti E ts n (arrival_enabled q))%Q.
Proof.
  intros NG ND RQ RC. apply (arrival_one info ti E ts n WF SE HR q rs); [exact ND|exact RQ|]. intros a a' A A' P P'. exfalso. apply in_all_insts in A. destruct A as [A [r [R TT]]]. destruct (RC r R) as [R1 R2].
  assert (EN : enabled info ti E ts n q = true) by (apply existsb_exists; exists a; auto). destruct (enabled_blocker info ti E ts n SE HR HB q EN) as [b0 B0].
  destruct (arrival_waits info ti E ts n SE HR HB q a (rb_task r) b0 A) as [_ [G _]]; try assumption; [rewrite TT; apply (wf_id info _ WF R1)|contradiction].
Qed.

Lemma local_lower q : ~ global_resource info q -> lower_ok rp info ti (assign info ti E ts n) q.
Proof.
  intros NG. split; [apply local_direct_zero; [exact NG|]|apply local_arrival_zero; [exact NG|apply remote_filtered_nodup| |]].
  - intros r R. apply filter_In in R. destruct R as [R _]. apply in_remote_requests in R. apply R.
  - intros r R. apply filter_In in R. destruct R as [R _]. apply in_remote_requests in R. apply R.
  - intros r R. apply filter_In in R. destruct R as [R _]. apply in_remote_requests in R. destruct R as [R1 [R2 _]]. auto.
Qed.

Lemma prio_holds : (forall q, global_resource info q -> exists pi, uniform_priority rp info c q pi /\ (pi <= N.of_nat (length info))%N /\ remote_below rp info c q pi false) ->
  prio_ok rp info ti (assign info ti E ts n).
Proof.
  intros H. constructor; intros q _; destruct (global_dec info q) as [G|NG].
  - destruct (H q G) as [pi [U [PN RB']]]. apply direct_hp_holds. intros _ _. destruct (wait_prio_limits q pi G U false PN RB'); auto.
  - apply local_direct_hp. exact NG.
  - destruct (H q G) as [pi [U [PN RB']]]. apply (lower_holds_ok q pi G U PN).
  - apply local_lower. exact NG.
  - destruct (H q G) as [pi [U [PN RB']]]. apply arrival_hp_holds. intros _ _. left. split; [|lia]. apply (wait_prio_limits q pi G U true PN RB').
  - apply local_arrival_hp. exact NG.
Qed.

Lemma prio_fifo_holds : fifo_among_equals rp info E ->
  (forall q, global_resource info q -> exists pi, uniform_priority rp info c q pi /\ (pi <= N.of_nat (length info))%N /\
    (pi = 0%N \/ (remote_below rp info c q pi true /\ exists r, In r (ti_requests ti) /\ q_res r = q /\ (0 < q_num r)%N))) ->
  prio_fifo_ok rp info ti (assign info ti E ts n).
Proof.
  intros FE H.
  assert (NONE : forall q tx, filter (higher rp 0) (requests_for tx q) = []).
  { intros q tx. generalize (requests_for tx q). clear. induction l as [|r l IH]; [reflexivity|]. cbn. unfold higher. destruct (N.ltb_spec (get_request_priority rp r) 0); [lia|exact IH]. }
  constructor.
  - intros q _. destruct (global_dec info q) as [G|NG]; [|apply local_lower; exact NG]. destruct (H q G) as [pi [U [PN _]]]. apply (lower_holds_ok q pi G U PN).
  - intros q _. destruct (global_dec info q) as [G|NG]; [|apply local_direct_hp; exact NG]. destruct (H q G) as [pi [U [PN C]]]. apply direct_hp_holds. intros b B. destruct C as [Z0|[RB' [r [R1 [R2 R3]]]]].
    + right. right. intros tx _ _. rewrite (local_all_min q pi U b B), Z0. apply NONE.
    + assert (OR : requests_for ti q <> []) by (intros X; assert (I : In (RB ti r) (requests_for ti q)) by (apply in_requests_for; cbn; auto); rewrite X in I; destruct I).
      destruct (wait_fifo_limits q pi G U FE false PN OR RB'); auto.
  - intros q c' _ NC. destruct (global_dec info q) as [G|NG].
    + destruct (H q G) as [pi [U _]]. apply (same_direct q pi G U FE c' NC).
    + apply local_direct_zero; [exact NG|]. intros r R. apply filter_In in R. destruct R as [R _]. apply in_cluster_requests in R. apply R.
  - intros q _. destruct (global_dec info q) as [G|NG]; [|apply local_arrival_hp; exact NG]. destruct (H q G) as [pi [U [PN C]]]. apply arrival_hp_holds. intros b B. destruct C as [Z0|[RB' [r [R1 [R2 R3]]]]].
    + right. intros tx _ _. rewrite (blocker_min q pi U b B), Z0. apply NONE.
    + left. assert (I : In (RB ti r) (requests_for ti q)) by (apply in_requests_for; cbn; auto). assert (OR : requests_for ti q <> []) by (intros X; rewrite X in I; destruct I).
      split; [apply (wait_fifo_limits q pi G U FE true PN OR RB')|]. unfold count_local_hp_reqs. pose proof (sum_over_in (fun r => q_num (rb_req r)) (requests_for ti q) (RB ti r) I) as S. cbn in S. lia.
  - intros q c' _ NC. destruct (global_dec info q) as [G|NG].
    + destruct (H q G) as [pi [U _]]. apply (same_arrival q pi G U FE c' NC).
    + apply local_arrival_zero; [exact NG|apply cluster_filtered_nodup| |]; intros r R; apply filter_In in R; destruct R as [R _]; apply in_cluster_requests in R; [apply R|]. destruct R as [R1 [R2 _]]. split; [exact R1|rewrite R2; exact NC].
Qed.
End Prio.

(** * The bounds *)
Lemma prio_blocking rp info i ti E ts n d opt : wf_info info -> distinct_priorities info -> spin_execution info E -> priority_order rp info E -> nth_error info i = Some ti ->
  Z.of_nat n <= Z.of_N (ti_response ti) -> (ti_response ti <= ti_period ti)%N -> quiet info E (ti_cluster ti) (ti_prio ti) ts ->
  busy info E (ti_cluster ti) (ti_prio ti) ts (ts + Z.of_nat n) -> on_time info E d -> ts + Z.of_nat n <= d ->
  (forall q, global_resource info q -> exists pi, uniform_priority rp info (ti_cluster ti) q pi /\ (pi <= N.of_nat (length info))%N /\ remote_below rp info (ti_cluster ti) q pi false) ->
  optimum (prio_lp rp info ti) opt -> Z.of_nat (count (lost info E (ti_cluster ti) (ti_prio ti)) ts n) <= lrint opt.
Proof.
  intros WF DP SE PO HI HN HR HQ HB HO HD H [_ OPT]. apply lrint_mono.
  eapply Qle_trans; [apply (lost_le_objective info i ti E ts n d); assumption|]. rewrite <- (prio_objective rp). apply OPT. apply prio_feasible.
  - apply (common_holds info i ti E ts n d); assumption.
  - apply (prio_holds rp info i ti E ts n d); assumption.
  - intros v. apply assign_range; assumption.
Qed.

Lemma prio_fifo_blocking rp info i ti E ts n d opt : wf_info info -> distinct_priorities info -> spin_execution info E -> priority_order rp info E -> fifo_among_equals rp info E -> nth_error info i = Some ti ->
  Z.of_nat n <= Z.of_N (ti_response ti) -> (ti_response ti <= ti_period ti)%N -> quiet info E (ti_cluster ti) (ti_prio ti) ts ->
  busy info E (ti_cluster ti) (ti_prio ti) ts (ts + Z.of_nat n) -> on_time info E d -> ts + Z.of_nat n <= d ->
  (forall q, global_resource info q -> exists pi, uniform_priority rp info (ti_cluster ti) q pi /\ (pi <= N.of_nat (length info))%N /\
    (pi = 0%N \/ (remote_below rp info (ti_cluster ti) q pi true /\ exists r, In r (ti_requests ti) /\ q_res r = q /\ (0 < q_num r)%N))) ->
  optimum (prio_fifo_lp rp info ti) opt -> Z.of_nat (count (lost info E (ti_cluster ti) (ti_prio ti)) ts n) <= lrint opt.
Proof.
  intros WF DP SE PO FE HI HN HR HQ HB HO HD H [_ OPT]. apply lrint_mono.
  eapply Qle_trans; [apply (lost_le_objective info i ti E ts n d); assumption|]. rewrite <- (prio_fifo_objective rp). apply OPT. apply prio_fifo_feasible.
  - apply (common_holds info i ti E ts n d); assumption.
  - apply (prio_fifo_holds rp info i ti E ts n d); assumption.
  - intros v. apply assign_range; assumption.
Qed.
