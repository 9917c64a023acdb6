(** The test of qpa_msrp.cpp decides the criterion. *)
From Coq Require Import NArith ZArith QArith List Bool Lia Arith.
From Verif Require Import Base ModelNative ModelQPA ModelLocking ModelMSRP SpecLocking SpecSpinFP SpecSpinEDF ProofLocking ProofSpin ProofQPA ProofQPAMono ProofMSRP.
Import ListNotations.
Open Scope Z_scope.

(** problems the test is meant for *)
Record msrp_ok (info : list taskinfo) (n : nat) : Prop := {
  mo_wf : wf_info info;
  mo_cpu : forall t, In t info -> (ti_cluster t < n)%nat;
  mo_prio : forall t, In t info -> (ti_prio t < UNLIMITED)%N;
  mo_cost : forall t, In t info -> (1 <= ti_cost t)%N;
  mo_deadline : forall t, In t info -> (1 <= ti_deadline t)%N /\ Z.of_N (ti_deadline t) <= ULONG_MAX;
  mo_request : forall t q, In t info -> In q (ti_requests t) -> (1 <= q_num q)%N /\ (q_len q <= ti_cost t)%N;
  mo_levels : levels_follow_deadlines info }.

Section Test.
Variables (info : list taskinfo) (n : nat).
Hypothesis OK : msrp_ok info n.
Variable c : nat.

Definition task_of (t : taskinfo) : ntask := task_init (Z.of_N (inflated info n t)) (Z.of_N (ti_period t)) (Z.of_N (ti_deadline t)) 0 0 0.
Definition cts : ntaskset := map task_of (in_cluster c info).
Definition BB (x : Z) : Z := Z.of_N (get_EDF_arrival_blocking info n (Z.to_N x) c).

Lemma in_cl t : In t (in_cluster c info) <-> In t info /\ ti_cluster t = c.
Proof. unfold in_cluster. rewrite filter_In, Nat.eqb_eq. tauto. Qed.

Lemma task_of_fields t : In t info -> n_wcet (task_of t) = Z.of_N (inflated info n t) /\ n_period (task_of t) = Z.of_N (ti_period t) /\ n_deadline (task_of t) = Z.of_N (ti_deadline t).
Proof. intros T. destruct (mo_deadline _ _ OK t T) as [D _]. unfold task_of, task_init. cbn. destruct (Z.eqb_spec (Z.of_N (ti_deadline t)) 0); [lia|auto]. Qed.

Lemma inflated_cost t : (ti_cost t <= inflated info n t)%N.
Proof. unfold inflated. lia. Qed.

Lemma cts_good : Forall good cts.
Proof.
  apply Forall_forall. intros x X. apply in_map_iff in X. destruct X as [t [<- T]]. apply in_cl in T. destruct T as [T _].
  pose proof (inflated_cost t). pose proof (mo_cost _ _ OK t T). pose proof (mo_deadline _ _ OK t T) as [D _]. destruct (proj2 (mo_wf _ _ OK) t T) as [P _]. unfold good. destruct (task_of_fields t T) as [-> [-> ->]]. lia.
Qed.

Lemma cts_ulong : ulong_ok cts.
Proof. apply Forall_forall. intros x X. apply in_map_iff in X. destruct X as [t [<- T]]. apply in_cl in T. destruct T as [T _]. destruct (task_of_fields t T) as [_ [_ ->]]. apply (mo_deadline _ _ OK t T). Qed.

Lemma h_demand x : h cts x = demand_of info n c x.
Proof.
  unfold h, cts, demand_of. fold (in_cluster c info). rewrite map_map.
  assert (X : forall l, incl l info -> Base.zsum (map (fun t => bound_demand (task_of t) x) l) = fold_right Z.add 0 (map (fun t => if x <? Z.of_N (ti_deadline t) then 0 else ((x - Z.of_N (ti_deadline t)) / Z.of_N (ti_period t) + 1) * Z.of_N (inflated info n t)) l)).
  { induction l as [|t l IH]; intros I; [reflexivity|]. cbn [map Base.zsum fold_right]. rewrite IH by (intros y Y; apply I; right; exact Y). f_equal.
    destruct (task_of_fields t (I t (or_introl eq_refl))) as [E1 [E2 E3]]. unfold bound_demand. rewrite E1, E2, E3. destruct (Z.ltb_spec (x - Z.of_N (ti_deadline t)) 0), (Z.ltb_spec x (Z.of_N (ti_deadline t))); try lia; reflexivity. }
  apply X. intros y Y. apply in_cl in Y. apply Y.
Qed.

Lemma arr L : (forall v, arrival_blocker info n c L v -> (v <= get_EDF_arrival_blocking info n L c)%N) /\
  (get_EDF_arrival_blocking info n L c = 0%N \/ arrival_blocker info n c L (get_EDF_arrival_blocking info n L c)).
Proof. apply arrival_spec; [apply OK|apply OK|apply OK|apply OK]. Qed.

Lemma h_jump (ts : ntaskset) t x y : Forall good ts -> In t ts -> x < n_deadline t <= y -> h ts x + n_wcet t <= h ts y.
Proof.
  intros G I L. induction ts as [|u ts IH]; [destruct I|]. inversion G as [|? ? Gu Gr]; subst. unfold h. cbn [map Base.zsum]. fold (h ts x) (h ts y). destruct I as [->|I].
  - pose proof (h_mono ts x y Gr ltac:(lia)). destruct Gu as [G1 [G2 G3]]. unfold bound_demand. destruct (Z.ltb_spec (x - n_deadline t) 0); [|lia]. destruct (Z.ltb_spec (y - n_deadline t) 0); [lia|].
    assert (0 <= (y - n_deadline t) / n_period t) by (apply Z.div_pos; lia). nia.
  - specialize (IH Gr I). pose proof (bd_mono u x y Gu ltac:(lia)). lia.
Qed.

Lemma sum_ge {A} (f : A -> N) l x : In x l -> (f x <= fold_right N.add 0 (map f l))%N.
Proof. induction l as [|y l IH]; intros H; [destruct H|]. cbn. destruct H as [->|H]; [lia|]. specialize (IH H). lia. Qed.

Lemma blocker_inflated x q : In x info -> In q (ti_requests x) ->
  (q_len q <= inflated info n x)%N /\ (global_resource info (q_res q) -> (fifo_wait info n (ti_cluster x) (q_res q) + q_len q <= inflated info n x)%N).
Proof.
  intros X Q. destruct (mo_request _ _ OK x q X Q) as [R1 R2]. split; [unfold inflated; lia|]. intros G. unfold inflated.
  pose proof (sum_ge (fun q => q_num q * fifo_wait info n (ti_cluster x) (q_res q))%N (filter (fun q => globalb info (q_res q)) (ti_requests x)) q) as S.
  specialize (S (proj2 (filter_In _ _ _) (conj Q (proj2 (globalb_spec _ _) G)))). cbv beta in S. nia.
Qed.

Lemma cts_in t : In t info -> ti_cluster t = c -> In (task_of t) cts.
Proof. intros T C. apply in_map, in_cl. auto. Qed.

Lemma B_late x : (forall t, In t cts -> n_deadline t <= x) -> BB x = 0.
Proof.
  intros H. unfold BB. destruct (arr (Z.to_N x)) as [_ [->|V]]; [reflexivity|]. destruct V as [y [q [t [Y1 [Y2 [Y3 [Y4 _]]]]]]].
  specialize (H _ (cts_in y Y1 Y2)). destruct (task_of_fields y Y1) as [_ [_ E]]. lia.
Qed.

Lemma B_early x : x < min_relative_deadline cts -> BB x = 0.
Proof.
  intros H. unfold BB. destruct (arr (Z.to_N x)) as [_ [->|V]]; [reflexivity|]. destruct V as [y [q [t [Y1 [Y2 [Y3 [Y4 [T1 [T2 [T3 _]]]]]]]]]].
  pose proof (proj2 (fold_min_le _ n_deadline cts ULONG_MAX) _ (cts_in t T1 T2)) as M. fold (min_relative_deadline cts) in M. destruct (task_of_fields t T1) as [_ [_ E]]. pose proof (mo_deadline _ _ OK t T1) as [D _]. lia.
Qed.

Lemma B_step x y : 0 <= x <= y -> h cts x + BB x <= h cts y + BB y.
Proof.
  intros H. pose proof cts_good as G. pose proof (h_mono cts x y G ltac:(lia)) as HM. unfold BB. destruct (arr (Z.to_N x)) as [_ [->|V]]; [lia|]. set (v := get_EDF_arrival_blocking info n (Z.to_N x) c) in *.
  destruct V as [z [q [t [Z1 [Z2 [Z3 [Z4 [T1 [T2 [T3 V]]]]]]]]]]. destruct (N.lt_ge_cases (Z.to_N y) (ti_deadline z)) as [L|L].
  - assert (X : arrival_blocker info n c (Z.to_N y) v) by (exists z, q, t; repeat split; auto; lia). apply (proj1 (arr (Z.to_N y))) in X. lia.
  - pose proof (h_jump cts (task_of z) x y G (cts_in z Z1 Z2)) as J. destruct (task_of_fields z Z1) as [E1 [_ E2]]. rewrite E1, E2 in J. specialize (J ltac:(lia)).
    destruct (blocker_inflated z q Z1 Z3) as [I1 I2]. destruct V as [[V1 V2]|[V1 [V2 _]]]; [specialize (I2 V1); rewrite Z2 in I2|]; lia.
Qed.

Lemma B_const x y : 0 <= x <= y -> (forall t, In t cts -> n_deadline t <= y -> n_deadline t <= x) -> BB y = BB x.
Proof.
  intros H D.
  assert (D' : forall t, In t info -> ti_cluster t = c -> (ti_deadline t <= Z.to_N y)%N -> (ti_deadline t <= Z.to_N x)%N).
  { intros t T C L. specialize (D _ (cts_in t T C)). destruct (task_of_fields t T) as [_ [_ E]]. lia. }
  assert (Q : forall v, arrival_blocker info n c (Z.to_N y) v <-> arrival_blocker info n c (Z.to_N x) v).
  { intros v. split; intros [z [q [t [Z1 [Z2 [Z3 [Z4 [T1 [T2 [T3 V]]]]]]]]]]; exists z, q, t; repeat split; auto; try lia.
    destruct (N.lt_ge_cases (Z.to_N y) (ti_deadline z)) as [L|L]; [exact L|]. specialize (D' z Z1 Z2 L). lia. }
  unfold BB. destruct (arr (Z.to_N x)) as [X1 X2], (arr (Z.to_N y)) as [Y1 Y2]. f_equal. apply N.le_antisymm.
  - destruct Y2 as [->|Y2]; [lia|]. apply X1, Q, Y2.
  - destruct X2 as [->|X2]; [lia|]. apply Y1, Q, X2.
Qed.

Lemma max_dl_ge t : In t cts -> n_deadline t <= max_relative_deadline cts.
Proof. intros T. apply (proj2 (fold_max_ge _ n_deadline cts 0) t T). Qed.

Lemma demand_spec x : 0 <= x -> msrp_demand info n c (max_relative_deadline cts) cts x = H cts BB x.
Proof.
  intros X. unfold msrp_demand, H. rewrite demand_h. destruct (Z.leb_spec x (max_relative_deadline cts)) as [L|L]; [reflexivity|].
  rewrite B_late; [lia|]. intros t T. pose proof (max_dl_ge t T). lia.
Qed.

Lemma viol_criterion : msrp_criterion info n c <-> forall x, ~ viol cts BB x.
Proof.
  unfold msrp_criterion, viol. split.
  - intros K x [X1 X2]. destruct (K x X1) as [K1 K2]. rewrite h_demand in X2. unfold BB in X2. destruct (arr (Z.to_N x)) as [_ [E|V]]; [rewrite E in X2; lia|]. specialize (K2 _ V). lia.
  - intros K L HL. pose proof (K L) as KL. rewrite h_demand in KL. unfold BB in KL. split; [lia|]. intros v V. apply (proj1 (arr (Z.to_N L))) in V. lia.
Qed.

Lemma msrp_one fuel : prod cts + max_relative_deadline cts < Z.of_nat fuel ->
  exists b, msrp_is_schedulable fuel info n c cts = Some b /\ (b = true <-> msrp_criterion info n c).
Proof.
  intros F. cut (exists b, msrp_is_schedulable fuel info n c cts = Some b /\ (b = true <-> forall x, ~ viol cts BB x)).
  { intros [b [E V]]. exists b. rewrite viol_criterion. auto. }
  unfold msrp_is_schedulable.
  assert (B0 : forall x, 0 <= x -> 0 <= BB x) by (intros; unfold BB; lia).
  destruct (qlt_bool 1 (ns_util cts)) eqn:Q.
  - exists false. split; [reflexivity|]. split; [discriminate|]. intros K. exfalso. destruct (extra_over cts BB cts_good B0) as [x V]; [|exact (K x V)].
    unfold qlt_bool in Q. apply negb_true_iff in Q. apply Qnot_le_lt. intros X. apply Qle_bool_iff in X. congruence.
  - assert (U1 : (ns_util cts <= 1)%Q) by (unfold qlt_bool in Q; apply negb_false_iff, Qle_bool_iff in Q; exact Q).
    destruct (extra_search cts BB cts_good cts_ulong B0 B_late B_early B_step B_const (msrp_demand info n c (max_relative_deadline cts) cts) demand_spec (max_relative_deadline cts) max_dl_ge) with (fuel := fuel) as [M [i [d [E1 [E2 V]]]]]; [|exact U1|exact F|].
    { apply (proj1 (fold_max_ge _ n_deadline cts 0)). }
    unfold msrp_max_interval. rewrite E1, E2. exists (d <=? min_relative_deadline cts). split; [reflexivity|]. destruct V as [[V1 V2]|[V1 [x V2]]].
    + apply Z.leb_le in V1. rewrite V1. split; auto.
    + apply Z.leb_gt in V1. rewrite V1. split; [discriminate|]. intros K. exfalso. exact (K x V2).
Qed.
End Test.

(** more fuel does not change the result *)
Lemma loop_stable : forall f ts demand m n r, qpa_loop f demand ts m n = Some r -> forall g, (f <= g)%nat -> qpa_loop g demand ts m n = Some r.
Proof.
  induction f as [|f IH]; intros ts demand m n r E g Hg; cbn in E; [discriminate|]. destruct g as [|g]; [lia|]. cbn.
  destruct ((demand n <=? n) && (m <? demand n)); [|exact E]. apply IH with (g := g) in E; [exact E|lia].
Qed.
Lemma busy_stable : forall f ts c r, busy_loop f ts c = Some r -> forall g, (f <= g)%nat -> busy_loop g ts c = Some r.
Proof.
  induction f as [|f IH]; intros ts c r E g Hg; cbn in E; [discriminate|]. destruct g as [|g]; [lia|]. cbn.
  destruct (negb (c =? busy_step ts c)); [|exact E]. apply IH with (g := g) in E; [exact E|lia].
Qed.
Lemma one_stable f info n c ts b : msrp_is_schedulable f info n c ts = Some b -> forall g, (f <= g)%nat -> msrp_is_schedulable g info n c ts = Some b.
Proof.
  unfold msrp_is_schedulable, msrp_max_interval, get_max_interval, edf_busy_interval. intros E g L. destruct (qlt_bool 1 (ns_util ts)); [exact E|].
  destruct (busy_loop f ts _) as [B|] eqn:EB; [|discriminate]. rewrite (busy_stable _ _ _ _ EB g L).
  destruct (qpa_loop f _ ts _ _) as [[i d]|] eqn:EQ; [|discriminate]. rewrite (loop_stable _ _ _ _ _ _ EQ g L). exact E.
Qed.
Lemma clusters_stable f info n ks b : msrp_clusters f info n ks = Some b -> forall g, (f <= g)%nat -> msrp_clusters g info n ks = Some b.
Proof.
  induction ks as [|k ks IH]; intros E g L; cbn in *; [exact E|]. destruct (msrp_is_schedulable f _ _ _ _) as [x|] eqn:X; [|discriminate]. rewrite (one_stable _ _ _ _ _ _ X g L). destruct x; [|exact E]. apply IH; assumption.
Qed.

Lemma msrp_exact info n : msrp_ok info n ->
  exists N, forall fuel, (N <= fuel)%nat -> exists b, pedf_msrp_classic_is_schedulable fuel info n = Some b /\ (b = true <-> forall c, msrp_criterion info n c).
Proof.
  intros OK. unfold pedf_msrp_classic_is_schedulable.
  assert (X : forall ks, exists N, forall fuel, (N <= fuel)%nat -> exists b, msrp_clusters fuel info n ks = Some b /\ (b = true <-> forall c, In c ks -> msrp_criterion info n c)).
  { induction ks as [|k ks [N IH]]; [exists O; intros fuel _; exists true; split; [reflexivity|]; split; [intros _ c []|reflexivity]|].
    exists (Nat.max N (S (Z.to_nat (prod (cts info n k) + max_relative_deadline (cts info n k))))). intros fuel F. cbn [msrp_clusters].
    rewrite (taskset_spec info n k (mo_wf _ _ OK) (mo_cpu _ _ OK)). fold (task_of info n). change (map _ (in_cluster k info)) with (cts info n k).
    pose proof (prod_pos _ (cts_good info n OK k)) as PP. assert (MP : 0 <= max_relative_deadline (cts info n k)) by apply (proj1 (fold_max_ge _ n_deadline (cts info n k) 0)).
    destruct (msrp_one info n OK k fuel ltac:(lia)) as [b [E V]]. rewrite E. destruct b.
    - destruct (IH fuel ltac:(lia)) as [b [E2 V2]]. exists b. split; [exact E2|]. rewrite V2. split; [intros K c [<-|I]; [apply V; reflexivity|apply K; exact I]|intros K c I; apply K; right; exact I].
    - exists false. split; [reflexivity|]. split; [discriminate|]. intros K. apply V. apply K. left. reflexivity. }
  destruct (X (seq 0 (length (split_by_cluster info 0)))) as [N HN]. exists N. intros fuel F. destruct (HN fuel F) as [b [E V]]. exists b. split; [exact E|]. rewrite V. split; [|intros K c _; apply K].
  intros K c. destruct (in_dec Nat.eq_dec c (seq 0 (length (split_by_cluster info 0)))) as [I|I]; [apply K, I|].
  assert (NO : forall t, In t info -> ti_cluster t <> c). { intros t T <-. apply I, in_seq. pose proof (cluster_lt info t T) as L. unfold num_clusters in L. lia. }
  intros L HL. split.
  - unfold demand_of. replace (filter (fun t => Nat.eqb (ti_cluster t) c) info) with (@nil taskinfo); [exact HL|]. symmetry. clear -NO. induction info as [|t l IH]; [reflexivity|]. cbn. destruct (Nat.eqb_spec (ti_cluster t) c) as [E|E]; [exfalso; exact (NO t (or_introl eq_refl) E)|]. apply IH. intros u U. apply NO. right. exact U.
  - intros v [x [q [t [X1 [X2 _]]]]]. exfalso. exact (NO x X1 X2).
Qed.

Lemma msrp_verdict info n fuel b : msrp_ok info n -> pedf_msrp_classic_is_schedulable fuel info n = Some b -> (b = true <-> forall c, msrp_criterion info n c).
Proof.
  intros OK E. destruct (msrp_exact info n OK) as [N HN]. destruct (HN (Nat.max N fuel) ltac:(lia)) as [b' [E' V]].
  unfold pedf_msrp_classic_is_schedulable in *. rewrite (clusters_stable _ _ _ _ _ E (Nat.max N fuel) ltac:(lia)) in E'. inversion E'. subst. exact V.
Qed.
