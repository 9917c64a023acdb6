(** What msrp.cpp computes, in terms of the task set. *)
From Coq Require Import NArith ZArith List Bool Lia Arith.
From Verif Require Import ModelNative ModelQPA ModelLocking ModelMSRP SpecLocking SpecSpinFP SpecSpinEDF ProofLocking ProofSpin ProofLockingMono.
Import ListNotations.
Open Scope N_scope.

Definition mx (l : list N) : N := fold_right N.max 0 l.

Lemma mx_in l x : In x l -> x <= mx l.
Proof. unfold mx. induction l as [|y r IH]; intros H; [destruct H|]. cbn. destruct H as [->|H]; [lia|]. specialize (IH H). lia. Qed.
Lemma mx_att l : mx l = 0 \/ In (mx l) l.
Proof.
  unfold mx. induction l as [|y r IH]; [left; reflexivity|]. cbn [fold_right]. destruct (N.max_spec y (fold_right N.max 0 r)) as [[_ ->]|[_ ->]]; [|right; left; reflexivity].
  destruct IH as [IH|IH]; [left; exact IH|right; right; exact IH].
Qed.
Lemma mx_app a b : mx (a ++ b) = N.max (mx a) (mx b).
Proof. unfold mx. induction a as [|x a IH]; cbn; [lia|]. rewrite IH. lia. Qed.

(** a fold whose steps take the maximum *)
Lemma fold_mx {A} (step : N -> A -> N) (f : A -> N) l : (forall m x, In x l -> step m x = N.max m (f x)) -> forall m, fold_left step l m = N.max m (mx (map f l)).
Proof.
  induction l as [|x r IH]; intros H m; [cbn; lia|]. cbn [fold_left map]. rewrite IH by (intros; apply H; right; assumption). rewrite H by (left; reflexivity). unfold mx. cbn. lia.
Qed.
Lemma fold_sum {A} (step : N -> A -> N) (f : A -> N) l : (forall m x, In x l -> step m x = m + f x) -> forall m, fold_left step l m = m + fold_right N.add 0 (map f l).
Proof.
  induction l as [|x r IH]; intros H m; [cbn; lia|]. cbn [fold_left map fold_right]. rewrite IH by (intros; apply H; right; assumption). rewrite H by (left; reflexivity). lia.
Qed.

Lemma mx_filter {A} (p : A -> bool) (f : A -> N) l : mx (map (fun x => if p x then f x else 0) l) = mx (map f (filter p l)).
Proof. unfold mx. induction l as [|x r IH]; [reflexivity|]. cbn [map filter fold_right]. rewrite IH. destruct (p x); cbn [map fold_right]; lia. Qed.
Lemma sum_filter {A} (p : A -> bool) (f : A -> N) l : fold_right N.add 0 (map (fun x => if p x then f x else 0) l) = fold_right N.add 0 (map f (filter p l)).
Proof. induction l as [|x r IH]; [reflexivity|]. cbn [map filter fold_right]. rewrite IH. destruct (p x); cbn [map fold_right]; lia. Qed.

Lemma clusters_nth info n c : nth c (split_by_cluster info n) [] = in_cluster c info.
Proof.
  unfold split_by_cluster. rewrite split_nth.
  assert (X : nth c (repeat (@nil taskinfo) n) [] = []) by (revert c; induction n as [|n IH]; intros [|c]; cbn; auto). rewrite X. reflexivity.
Qed.

(** ** Global resources *)
Lemma two_clusters_spec : forall l seen, (length seen <= 1)%nat -> (two_clusters seen l = true <->
  (exists s r, In s seen /\ In r l /\ ti_cluster (rb_task r) <> s) \/ (exists a b, In a l /\ In b l /\ ti_cluster (rb_task a) <> ti_cluster (rb_task b))).
Proof.
  induction l as [|rb r IH]; intros seen Hs; cbn [two_clusters].
  - split; [discriminate|]. intros [[s [x [_ [[] _]]]]|[a [b [[] _]]]].
  - set (c := ti_cluster (rb_task rb)). destruct (existsb (Nat.eqb c) seen) eqn:E.
    + destruct (Nat.ltb_spec 1 (length seen)) as [L|L]; [lia|]. rewrite IH by exact Hs.
      apply existsb_exists in E. destruct E as [s [S1 S2]]. apply Nat.eqb_eq in S2. subst s.
      destruct seen as [|s [|? ?]]; [destruct S1| |cbn in Hs; lia]. destruct S1 as [->|[]].
      split.
      * intros [[s [x [[<-|[]] [X N]]]]|[a [b [A [B N]]]]]; [left; exists c, x; repeat split; [left; reflexivity|right; exact X|exact N]|right; exists a, b; repeat split; [right; exact A|right; exact B|exact N]].
      * intros [[s [x [[<-|[]] [[<-|X] N]]]]|[a [b [[<-|A] [[<-|B] N]]]]]; try (exfalso; apply N; reflexivity).
        -- left. exists c, x. repeat split; [left; reflexivity|exact X|exact N].
        -- left. exists c, b. repeat split; [left; reflexivity|exact B|]. intros Y. apply N. symmetry. exact Y.
        -- left. exists c, a. repeat split; [left; reflexivity|exact A|exact N].
        -- right. exists a, b. auto.
    + destruct (Nat.ltb_spec 1 (length (c :: seen))) as [L|L].
      * split; [intros _|reflexivity]. destruct seen as [|s seen]; [cbn in L; lia|]. left. exists s, rb. repeat split; [left; reflexivity|left; reflexivity|].
        cbn in E. apply orb_false_iff in E. destruct E as [E _]. apply Nat.eqb_neq in E. exact E.
      * rewrite IH by exact L. destruct seen as [|? ?]; [|cbn in L; lia]. split.
        -- intros [[s [x [[<-|[]] [X N]]]]|[a [b [A [B N]]]]]; right.
           ++ exists x, rb. repeat split; [right; exact X|left; reflexivity|exact N].
           ++ exists a, b. repeat split; [right; exact A|right; exact B|exact N].
        -- intros [[s [x [[] _]]]|[a [b [[<-|A] [[<-|B] N]]]]]; try (exfalso; apply N; reflexivity).
           ++ left. exists c, b. repeat split; [left; reflexivity|exact B|]. intros Y. apply N. symmetry. exact Y.
           ++ left. exists c, a. repeat split; [left; reflexivity|exact A|exact N].
           ++ right. exists a, b. auto.
Qed.

Lemma globalb_spec info r : globalb info r = true <-> global_resource info r.
Proof.
  unfold globalb, global_resource, uses. rewrite existsb_exists. split.
  - intros [t [T X]]. apply existsb_exists in X. destruct X as [u [V X]]. apply andb_true_iff in X. destruct X as [X X3]. apply andb_true_iff in X. destruct X as [X1 X2].
    apply negb_true_iff, Nat.eqb_neq in X1. apply existsb_exists in X2, X3. destruct X2 as [q [Q1 Q2]], X3 as [p [P1 P2]]. apply Nat.eqb_eq in Q2, P2.
    exists t, u. repeat split; auto; [exists q; auto|exists p; auto].
  - intros [t [u [[T [q [Q1 Q2]]] [[V [p [P1 P2]]] N]]]]. exists t. split; [exact T|]. apply existsb_exists. exists u. split; [exact V|].
    apply Nat.eqb_neq in N. rewrite N. cbn [negb andb]. apply andb_true_iff. split; apply existsb_exists; [exists q|exists p]; (split; [assumption|apply Nat.eqb_eq; assumption]).
Qed.

Definition globals (info : list taskinfo) : list nat := get_global_resources (split_by_resource info).

Lemma in_for_resource info r x : In x (for_resource r (all_requests info)) <-> exists t q, In t info /\ In q (ti_requests t) /\ q_res q = r /\ x = RB t q.
Proof.
  unfold for_resource. rewrite filter_In, Nat.eqb_eq, in_all_requests. split.
  - intros [[t [q [A [B ->]]]] E]. exists t, q. auto.
  - intros [t [q [A [B [E ->]]]]]. split; [exists t, q; auto|exact E].
Qed.

Lemma is_global_spec info r : is_global (globals info) r = globalb info r.
Proof.
  apply eq_true_iff_eq. rewrite globalb_spec. unfold is_global, globals, get_global_resources.
  transitivity (In r (filter (fun r => two_clusters [] (nth r (split_by_resource info) [])) (seq 0 (length (split_by_resource info))))).
  { rewrite existsb_exists. split; [intros [x [X E]]; apply Nat.eqb_eq in E; subst x; exact X|]. intros X. exists r. split; [exact X|apply Nat.eqb_refl]. }
  rewrite filter_In, in_seq, split_by_resource_nth, (two_clusters_spec _ []) by (cbn; lia). unfold global_resource, uses. split.
  - intros [_ [[s [x [[] _]]]|[a [b [A [B N]]]]]]. apply in_for_resource in A, B. destruct A as [t [q [T [Q [E ->]]]]], B as [u [p [V [P [F ->]]]]]. exists t, u. repeat split; auto; [exists q; auto|exists p; auto].
  - intros [t [u [[T [q [Q E]]] [[V [p [P F]]] N]]]].
    assert (A : In (RB t q) (for_resource r (all_requests info))) by (apply in_for_resource; exists t, q; auto).
    assert (B : In (RB u p) (for_resource r (all_requests info))) by (apply in_for_resource; exists u, p; auto).
    split.
    + split; [lia|]. cbn [Nat.add]. destruct (Nat.lt_ge_cases r (length (split_by_resource info))) as [L|L]; [exact L|]. exfalso.
      pose proof (split_by_resource_nth info r) as X. rewrite nth_overflow in X by exact L. rewrite <- X in A. destruct A.
    + right. exists (RB t q), (RB u p). auto.
Qed.

(** ** Waiting *)
Lemma max_csl_spec info n k r : max_csl (nth k (split_by_cluster info n) []) r = longest info k r.
Proof.
  rewrite clusters_nth. unfold max_csl, longest. fold (in_cluster k info).
  rewrite (fold_mx _ (fun t => mx (map q_len (filter (fun q => Nat.eqb (q_res q) r) (ti_requests t))))).
  2:{ intros m t _. rewrite (fold_mx _ (fun q => if Nat.eqb (q_res q) r then q_len q else 0)). - rewrite mx_filter. reflexivity. - intros m' q _. destruct (Nat.eqb (q_res q) r); lia. }
  rewrite N.max_0_l. induction (in_cluster k info) as [|t l IH]; [reflexivity|]. cbn [map flat_map]. rewrite filter_app, map_app. unfold mx at 1. cbn [fold_right]. fold (mx (map (fun t => mx (map q_len (filter (fun q => Nat.eqb (q_res q) r) (ti_requests t)))) l)). rewrite IH.
  match goal with |- _ = fold_right N.max 0 (?a ++ ?b) => change (fold_right N.max 0 (a ++ b)) with (mx (a ++ b)) end. rewrite mx_app. reflexivity.
Qed.

Lemma max_csl_sum_spec info n c r : max_csl_sum c (split_by_cluster info n) n r = fifo_wait info n c r.
Proof.
  unfold max_csl_sum, fifo_wait. rewrite (fold_sum _ (fun k => if negb (Nat.eqb k c) then longest info k r else 0)).
  - rewrite sum_filter. lia.
  - intros m k _. rewrite max_csl_spec. destruct (Nat.eqb k c); cbn [negb]; lia.
Qed.

Lemma remote_spec info n t : let b := msrp_remote_bound t (split_by_cluster info n) (globals info) n in
  i_len (fst b) = fold_right N.add 0 (map (fun q => q_num q * fifo_wait info n (ti_cluster t) (q_res q)) (filter (fun q => globalb info (q_res q)) (ti_requests t))) /\
  i_len (snd b) = mx (map (fun q => fifo_wait info n (ti_cluster t) (q_res q) + q_len q) (filter (fun q => globalb info (q_res q)) (ti_requests t))).
Proof.
  cbv zeta. unfold msrp_remote_bound.
  assert (X : forall l a b, let f := fold_left (fun (st : interf * interf) q =>
    if negb (is_global (globals info) (q_res q)) then st
    else let s := max_csl_sum (ti_cluster t) (split_by_cluster info n) n (q_res q) in
      (Inter (i_count (fst st) + q_num q) (i_len (fst st) + q_num q * s), Inter (i_count (snd st)) (N.max (i_len (snd st)) (s + q_len q)))) l (a, b) in
    i_len (fst f) = i_len a + fold_right N.add 0 (map (fun q => q_num q * fifo_wait info n (ti_cluster t) (q_res q)) (filter (fun q => globalb info (q_res q)) l)) /\
    i_len (snd f) = N.max (i_len b) (mx (map (fun q => fifo_wait info n (ti_cluster t) (q_res q) + q_len q) (filter (fun q => globalb info (q_res q)) l)))).
  { induction l as [|q l IH]; intros a b; cbv zeta; [cbn; split; lia|]. cbn [fold_left filter]. rewrite is_global_spec, max_csl_sum_spec. cbv zeta in IH.
    destruct (globalb info (q_res q)) eqn:E; cbn [negb map fold_right]; [|apply IH].
    match goal with |- context [fold_left _ l (?x, ?y)] => destruct (IH x y) as [-> ->] end. cbn [fst snd i_len]. unfold mx. cbn [fold_right]. split; lia. }
  destruct (X (ti_requests t) inter0 inter0) as [X1 X2]. split; [etransitivity; [exact X1|apply N.add_0_l]|etransitivity; [exact X2|apply N.max_0_l]].
Qed.

(** ** Ceilings *)
Lemma ceilings_spec info r p : p < UNLIMITED -> (nth r (get_priority_ceilings info) UNLIMITED <= p <-> exists u, uses info r u /\ ti_prio u <= p).
Proof.
  intros HU. rewrite ceilings_nth, ceiling_spec. unfold uses. split.
  - intros [H|[x [X P]]]; [lia|]. apply in_for_resource in X. destruct X as [u [q [V [Q [E ->]]]]]. exists u. split; [split; [exact V|exists q; auto]|exact P].
  - intros [u [[V [q [Q E]]] P]]. right. exists (RB u q). split; [apply in_for_resource; exists u, q; auto|exact P].
Qed.

Lemma nested_max (tasks : list taskinfo) (c : taskinfo -> reqspec -> bool) (w : reqspec -> N) m :
  fold_left (fun m t => fold_left (fun m q => if c t q then m else N.max m (w q)) (ti_requests t) m) tasks m =
  N.max m (mx (map (fun t => mx (map w (filter (fun q => negb (c t q)) (ti_requests t)))) tasks)).
Proof.
  apply fold_mx. intros m' t _. rewrite (fold_mx _ (fun q => if negb (c t q) then w q else 0)); [rewrite mx_filter; reflexivity|]. intros m'' q _. destruct (c t q); cbn [negb]; lia.
Qed.

(** ** Arrival blocking *)
Lemma arrival_spec info n c L : wf_info info -> (forall t, In t info -> ti_prio t < UNLIMITED) -> (forall t, In t info -> (ti_cluster t < n)%nat) -> levels_follow_deadlines info ->
  let B := get_EDF_arrival_blocking info n L c in
  (forall v, arrival_blocker info n c L v -> v <= B) /\ (B = 0 \/ arrival_blocker info n c L B).
Proof.
  intros W PU CL LV B.
  set (npv := fun tx => mx (map (fun q => fifo_wait info n (ti_cluster tx) (q_res q) + q_len q) (filter (fun q => globalb info (q_res q)) (ti_requests tx)))).
  set (npc := fun tsk tx => negb (Nat.eqb (ti_cluster tx) (ti_cluster tsk)) || (ti_prio tx <? ti_prio tsk) || Nat.eqb (ti_id tsk) (ti_id tx) || (ti_deadline tx <=? L)).
  set (loc := fun tsk t q => (ti_prio t <=? ti_prio tsk) || globalb info (q_res q) || (ti_prio tsk <? nth (q_res q) (get_priority_ceilings info) UNLIMITED) || (ti_deadline t <=? L)).
  set (vt := fun tsk => if negb ((L <? ti_deadline tsk) || negb (Nat.eqb (ti_cluster tsk) c)) then
    N.max (mx (map npv (filter (fun tx => negb (npc tsk tx)) info))) (mx (map (fun t => mx (map q_len (filter (fun q => negb (loc tsk t q)) (ti_requests t)))) (in_cluster (ti_cluster tsk) info))) else 0).
  assert (E : B = mx (map vt info)).
  { unfold B, get_EDF_arrival_blocking. rewrite (fold_mx _ vt); [apply N.max_0_l|]. intros m tsk Ht. unfold vt.
    destruct ((L <? ti_deadline tsk) || negb (Nat.eqb (ti_cluster tsk) c)) eqn:C; cbn [negb]; [lia|].
    rewrite (proj2 (Nat.ltb_lt _ _) (CL tsk Ht)). fold (globals info).
    rewrite (fold_mx _ (fun tx => if negb (npc tsk tx) then npv tx else 0)).
    2:{ intros m' tx Hx. unfold npc, np_blocking. rewrite (proj2 (Nat.ltb_lt _ _) (CL tx Hx)). rewrite (proj2 (remote_spec info n tx)). match goal with |- (if ?b then _ else _) = _ => destruct b end; cbn [negb]; [lia|reflexivity]. }
    rewrite mx_filter. unfold msrp_local_bound. rewrite clusters_nth.
    set (lm := fold_left _ (in_cluster (ti_cluster tsk) info) 0).
    assert (LM : lm = mx (map (fun t => mx (map q_len (filter (fun q => negb (loc tsk t q)) (ti_requests t)))) (in_cluster (ti_cluster tsk) info))).
    { unfold lm. rewrite (nested_max (in_cluster (ti_cluster tsk) info) (fun t q => (ti_prio t <=? ti_prio tsk) || is_global (globals info) (q_res q) || (ti_prio tsk <? nth (q_res q) (get_priority_ceilings info) UNLIMITED) || (ti_deadline t <=? L))).
      rewrite N.max_0_l. f_equal. apply map_ext. intros t. f_equal. f_equal. apply filter_ext. intros q. unfold loc. rewrite is_global_spec. reflexivity. }
    rewrite <- LM. destruct (N.ltb_spec 0 lm); cbn [i_len inter0]; lia. }
  split.
  - intros v [x [q [t [X1 [X2 [X3 [X4 [T1 [T2 [T3 V]]]]]]]]]]. rewrite E. transitivity (vt t); [|apply mx_in, in_map; exact T1].
    unfold vt. rewrite (proj2 (N.ltb_ge _ _) T3), T2, Nat.eqb_refl. cbn [orb negb].
    pose proof (LV t x T1 X1 ltac:(lia)) as P. destruct V as [[G ->]|[G [-> [u [U P2]]]]].
    + transitivity (npv x); [|etransitivity; [|apply N.le_max_l]; apply mx_in, in_map, filter_In; split; [exact X1|]].
      * unfold npv. apply mx_in, in_map_iff. exists q. rewrite X2. split; [reflexivity|]. apply filter_In. split; [exact X3|apply globalb_spec; exact G].
      * unfold npc. rewrite X2, T2, Nat.eqb_refl, (proj2 (N.ltb_ge _ _)) by lia. rewrite (proj2 (N.leb_gt _ _)) by lia.
        destruct (Nat.eqb_spec (ti_id t) (ti_id x)) as [I|I]; [|reflexivity]. pose proof (wf_id info t W T1) as A. pose proof (wf_id info x W X1) as A2. rewrite I in A. rewrite A in A2. inversion A2. subst. lia.
    + etransitivity; [|apply N.le_max_r]. transitivity (mx (map q_len (filter (fun q => negb (loc t x q)) (ti_requests x)))).
      * apply mx_in, in_map, filter_In. split; [exact X3|]. unfold loc. rewrite (proj2 (N.leb_gt _ _)) by lia. cbn [orb].
        destruct (globalb info (q_res q)) eqn:GB; [exfalso; apply G, globalb_spec; exact GB|]. cbn [orb].
        rewrite (proj2 (N.ltb_ge _ _)) by (apply (ceilings_spec info (q_res q) (ti_prio t) (PU t T1)); exists u; split; assumption). cbn [orb]. rewrite (proj2 (N.leb_gt _ _)) by lia. reflexivity.
      * apply mx_in. apply in_map_iff. exists x. split; [reflexivity|]. apply filter_In. split; [exact X1|]. apply Nat.eqb_eq. congruence.
  - rewrite E. destruct (mx_att (map vt info)) as [Z|I]; [left; exact Z|]. apply in_map_iff in I. destruct I as [t [V T1]]. rewrite <- V. clear V E.
    unfold vt. destruct ((L <? ti_deadline t) || negb (Nat.eqb (ti_cluster t) c)) eqn:C; cbn [negb]; [left; reflexivity|]. apply orb_false_iff in C. destruct C as [C1 C2]. apply N.ltb_ge in C1. apply negb_false_iff, Nat.eqb_eq in C2.
    destruct (N.max_spec (mx (map npv (filter (fun tx => negb (npc t tx)) info))) (mx (map (fun t0 => mx (map q_len (filter (fun q => negb (loc t t0 q)) (ti_requests t0)))) (in_cluster (ti_cluster t) info)))) as [[_ ->]|[_ ->]].
    + match goal with |- mx ?l = 0 \/ _ => destruct (mx_att l) as [Z|I]; [left; exact Z|] end. apply in_map_iff in I. destruct I as [x [V X1]]. rewrite <- V.
      destruct (mx_att (map q_len (filter (fun q => negb (loc t x q)) (ti_requests x)))) as [Z|I]; [left; exact Z|]. apply in_map_iff in I. destruct I as [q [V2 Q]]. rewrite <- V2.
      apply filter_In in Q. destruct Q as [Q1 Q2]. unfold loc in Q2. apply negb_true_iff in Q2. apply orb_false_iff in Q2. destruct Q2 as [Q2 Q5]. apply orb_false_iff in Q2. destruct Q2 as [Q2 Q4]. apply orb_false_iff in Q2. destruct Q2 as [Q2 Q3].
      apply N.leb_gt in Q2, Q5. apply N.ltb_ge in Q4. apply filter_In in X1. destruct X1 as [X1 X2]. apply Nat.eqb_eq in X2.
      apply (ceilings_spec info (q_res q) (ti_prio t) (PU t T1)) in Q4. right. exists x, q, t. repeat split; auto; [congruence|]. right. split; [|split; [reflexivity|exact Q4]]. intros G. apply globalb_spec in G. congruence.
    + match goal with |- mx ?l = 0 \/ _ => destruct (mx_att l) as [Z|I]; [left; exact Z|] end. apply in_map_iff in I. destruct I as [x [V X1]]. rewrite <- V. apply filter_In in X1. destruct X1 as [X1 X2].
      unfold npc in X2. apply negb_true_iff in X2. apply orb_false_iff in X2. destruct X2 as [X2 X5]. apply orb_false_iff in X2. destruct X2 as [X2 X4]. apply orb_false_iff in X2. destruct X2 as [X2 X3].
      apply negb_false_iff, Nat.eqb_eq in X2. apply N.leb_gt in X5. unfold npv.
      match goal with |- mx ?l = 0 \/ _ => destruct (mx_att l) as [Z|I]; [left; exact Z|] end. apply in_map_iff in I. destruct I as [q [V2 Q]]. apply filter_In in Q. destruct Q as [Q1 Q2]. rewrite <- V2.
      right. exists x, q, t. repeat split; auto; [congruence|]. left. split; [apply globalb_spec; exact Q2|]. rewrite X2, C2. reflexivity.
Qed.

(** ** The task set of a processor *)
Lemma taskset_spec info n k : wf_info info -> (forall t, In t info -> (ti_cluster t < n)%nat) ->
  msrp_taskset info (msrp_bounds info n) k = map (fun t => task_init (Z.of_N (inflated info n t)) (Z.of_N (ti_period t)) (Z.of_N (ti_deadline t)) 0 0 0) (in_cluster k info).
Proof.
  intros W CL. unfold msrp_taskset, in_cluster.
  assert (X : forall l acc, incl l info -> fold_left (fun ts t => if Nat.eqb (ti_cluster t) k
    then add_task ts (Z.of_N (ti_cost t + i_len (bb_remote (nth (ti_id t) (msrp_bounds info n) (BB inter0 inter0 inter0 inter0 inter0))))) (Z.of_N (ti_period t)) (Z.of_N (ti_deadline t))
    else ts) l acc = acc ++ map (fun t => task_init (Z.of_N (inflated info n t)) (Z.of_N (ti_period t)) (Z.of_N (ti_deadline t)) 0 0 0) (filter (fun t => Nat.eqb (ti_cluster t) k) l)).
  { induction l as [|t l IH]; intros acc I; cbn [fold_left filter]; [rewrite app_nil_r; reflexivity|]. rewrite IH by (intros x Hx; apply I; right; exact Hx).
    assert (T : In t info) by (apply I; left; reflexivity).
    destruct (Nat.eqb (ti_cluster t) k); [|reflexivity]. unfold add_task. rewrite <- app_assoc. f_equal. cbn [map app]. f_equal. f_equal. f_equal. unfold inflated. f_equal.
    unfold msrp_bounds. erewrite nth_error_nth; [|apply map_nth_error, wf_id; [exact W|exact T]]. cbn [bb_remote]. rewrite (proj2 (Nat.ltb_lt _ _) (CL t T)). apply (proj1 (remote_spec info n t)). }
  apply (X info [] (incl_refl _)).
Qed.
