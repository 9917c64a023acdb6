(** Soundness of the FIFO spin-lock bound: every execution of a FIFO spin lock
    with non-preemptive spinning spins at most for the computed time. *)
From Coq Require Import NArith ZArith List Bool Sorted Permutation Lia Arith.
From Verif Require Import ModelLocking SpecLocking ProofLocking.
Import ListNotations.
Open Scope N_scope.

(** * Splitting by cluster and resource *)
Lemma push_at_nth {A} (a : A) : forall m v n, nth n (push_at m a v) [] = nth n v [] ++ (if Nat.eqb m n then [a] else []).
Proof.
  induction m as [|m IH]; intros [|l r] [|n]; cbn [push_at nth Nat.eqb]; rewrite ?app_nil_r; try reflexivity.
  - destruct n; reflexivity.
  - rewrite IH. destruct n; cbn [nth app]; reflexivity.
  - apply IH.
Qed.

Lemma push_at_length {A} (a : A) : forall m v, length (push_at m a v) = Nat.max (S m) (length v).
Proof.
  induction m as [|m IH]; intros [|l r]; cbn [push_at length]; try reflexivity.
  - rewrite IH. cbn [length]. lia.
  - rewrite IH. lia.
Qed.

Lemma split_nth {A} (key : A -> nat) l : forall v n, nth n (fold_left (fun v a => push_at (key a) a v) l v) [] = nth n v [] ++ filter (fun a => Nat.eqb (key a) n) l.
Proof.
  induction l as [|a r IH]; intros v n; cbn [fold_left filter]; [rewrite app_nil_r; reflexivity|].
  rewrite IH, push_at_nth, <- app_assoc. f_equal. destruct (Nat.eqb (key a) n); reflexivity.
Qed.

Lemma split_length {A} (key : A -> nat) l : forall v, (length v <= length (fold_left (fun v a => push_at (key a) a v) l v))%nat /\
  forall a, In a l -> (key a < length (fold_left (fun v a => push_at (key a) a v) l v))%nat.
Proof.
  induction l as [|x r IH]; intros v; cbn [fold_left]; [split; [lia|intros a []]|].
  destruct (IH (push_at (key x) x v)) as [A1 A2]. rewrite push_at_length in A1. split; [lia|].
  intros a [<-|H]; [lia|apply A2; exact H].
Qed.

Definition in_cluster (c : nat) (info : list taskinfo) : list taskinfo := filter (fun t => Nat.eqb (ti_cluster t) c) info.
Definition for_resource (q : nat) (l : list rbound) : list rbound := filter (fun r => Nat.eqb (rb_res r) q) l.
Definition contention (info : list taskinfo) (c q : nat) : list rbound := sort_by_request_length (for_resource q (all_requests (in_cluster c info))).

Definition num_clusters (info : list taskinfo) : nat := length (split_by_cluster info 0).

Lemma split_by_cluster_nth info c : nth c (split_by_cluster info 0) [] = in_cluster c info.
Proof.
  unfold split_by_cluster. rewrite split_nth. cbn [repeat]. destruct c; reflexivity.
Qed.

Lemma cluster_lt info t : In t info -> (ti_cluster t < num_clusters info)%nat.
Proof. intros H. unfold num_clusters, split_by_cluster. apply (proj2 (split_length ti_cluster info (repeat [] 0))). exact H. Qed.

Lemma split_by_resource_nth tasks q : nth q (split_by_resource tasks) [] = for_resource q (all_requests tasks).
Proof. unfold split_by_resource. rewrite split_nth. destruct q; reflexivity. Qed.

Lemma cluster_contention_nth info c q : nth q (nth c (cluster_contention info) []) [] = contention info c q.
Proof.
  unfold cluster_contention, sort_cluster_resources, split_clusters_by_resource, contention.
  rewrite map_map. change (@nil (list rbound)) with ((fun x => sort_resources (split_by_resource x)) []). rewrite map_nth.
  unfold sort_resources. change (@nil rbound) with (sort_by_request_length []) at 1. rewrite map_nth, split_by_resource_nth, split_by_cluster_nth. reflexivity.
Qed.

Lemma cluster_contention_length info : length (cluster_contention info) = num_clusters info.
Proof. unfold cluster_contention, sort_cluster_resources, split_clusters_by_resource. rewrite !map_length. reflexivity. Qed.

Definition sumN (l : list N) : N := fold_right N.add 0 l.

Lemma sumN_app a b : sumN (a ++ b) = sumN a + sumN b.
Proof. induction a as [|x r IH]; cbn; [reflexivity|]. unfold sumN in *. lia. Qed.

Lemma combine_seq {A B} (d : A) (f : nat -> B) (l : list A) : combine l (map f (seq 0 (length l))) = map (fun i => (nth i l d, f i)) (seq 0 (length l)).
Proof.
  assert (G : forall l s, combine l (map f (seq s (length l))) = map (fun i => (nth (i - s) l d, f i)) (seq s (length l))).
  { clear l. induction l as [|x r IH]; intros s; [reflexivity|]. cbn [length seq map combine]. rewrite Nat.sub_diag. cbn [nth]. f_equal.
    rewrite IH. apply map_ext_in. intros i Hi. apply in_seq in Hi. f_equal. replace (i - s)%nat with (S (i - S s)) by lia. reflexivity. }
  rewrite G. apply map_ext. intros i. rewrite Nat.sub_0_r. reflexivity.
Qed.

Lemma fold_iadd {A} (g : A -> interf) l : forall acc, fold_left (fun b x => iadd b (g x)) l acc = iadd acc (Inter (sumN (map (fun x => i_count (g x)) l)) (sumN (map (fun x => i_len (g x)) l))).
Proof.
  induction l as [|x r IH]; intros acc; cbn [fold_left map sumN fold_right]; [symmetry; apply iadd_0_r|].
  rewrite IH. unfold iadd; cbn [i_count i_len]. unfold sumN. f_equal; lia.
Qed.

Lemma fold_left_ext {A B} (f g : A -> B -> A) l : (forall a b, In b l -> f a b = g a b) -> forall a, fold_left f l a = fold_left g l a.
Proof.
  induction l as [|x r IH]; intros H a; [reflexivity|]. cbn. rewrite H by (left; reflexivity). apply IH. intros; apply H; right; assumption.
Qed.

(** the per-cluster limit *)
Definition climit (procs issued : N) (irq : option nat) (own c : nat) : N :=
  issued * (let p := available procs irq c in if Nat.eqb own c then p - 1 else p).

Lemma np_fifo_eq info tsk procs q issued irq :
  np_fifo_per_resource tsk (cluster_contention info) procs q issued irq =
  Inter (sumN (map (fun c => i_count (bound_blocking (contention info c q) (ti_response tsk) (climit procs issued irq (ti_cluster tsk) c) issued (ti_id tsk) 0)) (seq 0 (num_clusters info))))
        (sumN (map (fun c => i_len (bound_blocking (contention info c q) (ti_response tsk) (climit procs issued irq (ti_cluster tsk) c) issued (ti_id tsk) 0)) (seq 0 (num_clusters info)))).
Proof.
  unfold np_fifo_per_resource, bound_blocking_all_clusters, np_fifo_limits.
  rewrite (combine_seq []). rewrite cluster_contention_length.
  set (g := fun c => bound_blocking (contention info c q) (ti_response tsk) (climit procs issued irq (ti_cluster tsk) c) issued (ti_id tsk) 0).
  assert (G : forall l acc, fold_left (fun inter p => let '(resources, (total, src)) := p in
     if Nat.ltb q (length resources) then iadd inter (bound_blocking (nth q resources []) (ti_response tsk) total src (ti_id tsk) 0) else inter)
     (map (fun i => (nth i (cluster_contention info) [],
        (issued * (if negb ((if match irq with Some i0 => Nat.eqb i i0 | None => false end then procs - 1 else procs) =? 0) && Nat.eqb (ti_cluster tsk) i
                   then (if match irq with Some i0 => Nat.eqb i i0 | None => false end then procs - 1 else procs) - 1
                   else (if match irq with Some i0 => Nat.eqb i i0 | None => false end then procs - 1 else procs)), issued))) l) acc
     = fold_left (fun b c => iadd b (g c)) l acc).
  { induction l as [|c r IH]; intros acc; [reflexivity|]. cbn [map fold_left]. rewrite IH. f_equal.
    assert (E : (if match irq with Some i0 => Nat.eqb c i0 | None => false end then procs - 1 else procs) = available procs irq c).
    { unfold available. destruct irq as [i0|]; [|lia]. rewrite (Nat.eqb_sym i0 c). destruct (Nat.eqb c i0); lia. }
    rewrite E. clear E.
    assert (E : (if negb (available procs irq c =? 0) && Nat.eqb (ti_cluster tsk) c then available procs irq c - 1 else available procs irq c) =
                (if Nat.eqb (ti_cluster tsk) c then available procs irq c - 1 else available procs irq c)).
    { destruct (N.eqb_spec (available procs irq c) 0) as [Z|Z]; cbn [negb andb]; [destruct (Nat.eqb _ _); lia|reflexivity]. }
    rewrite E. clear E. destruct (Nat.ltb_spec q (length (nth c (cluster_contention info) []))) as [L|L].
    - rewrite cluster_contention_nth. reflexivity.
    - assert (E : contention info c q = []) by (rewrite <- cluster_contention_nth; apply nth_overflow; exact L).
      subst g. cbn beta. rewrite E. symmetry. apply iadd_0_r. }
  cbv zeta. rewrite G, fold_iadd. rewrite iadd_0_l. reflexivity.
Qed.

(** * Keyed by task identifiers *)
Definition tkey (r : rbound) : nat := ti_id (rb_task r).

Lemma in_all_requests tasks r : In r (all_requests tasks) <-> exists t q, In t tasks /\ In q (ti_requests t) /\ r = RB t q.
Proof.
  unfold all_requests. rewrite in_concat. split.
  - intros [l [H1 H2]]. apply in_map_iff in H1. destruct H1 as [t [<- Ht]]. apply in_map_iff in H2. destruct H2 as [q [<- Hq]]. exists t, q. auto.
  - intros [t [q [H1 [H2 ->]]]]. exists (map (RB t) (ti_requests t)). split; [apply in_map_iff; exists t; auto|apply in_map; exact H2].
Qed.

Lemma in_contention info c q r : In r (contention info c q) <-> In (rb_task r) info /\ ti_cluster (rb_task r) = c /\ In (rb_req r) (ti_requests (rb_task r)) /\ q_res (rb_req r) = q.
Proof.
  unfold contention. split.
  - intros H. apply (Permutation_in _ (Permutation_sym (sort_len_perm rb_len _))) in H. apply filter_In in H. destruct H as [H1 H2].
    apply in_all_requests in H1. destruct H1 as [t [x [Ht [Hx ->]]]]. apply filter_In in Ht. destruct Ht as [Ht Hc]. apply Nat.eqb_eq in Hc, H2. cbn. auto.
  - intros [H1 [H2 [H3 H4]]]. apply (Permutation_in _ (sort_len_perm rb_len _)). apply filter_In. split; [|apply Nat.eqb_eq; exact H4].
    apply in_all_requests. exists (rb_task r), (rb_req r). split; [apply filter_In; split; [exact H1|apply Nat.eqb_eq; exact H2]|].
    split; [exact H3|destruct r; reflexivity].
Qed.

Lemma nodup_res_filter l q : NoDup (map q_res l) -> (length (filter (fun x => Nat.eqb (q_res x) q) l) <= 1)%nat.
Proof.
  induction l as [|x r IH]; intros H; cbn; [lia|]. inversion H as [|a b NI ND]; subst.
  destruct (Nat.eqb_spec (q_res x) q) as [E|E]; [|apply IH; exact ND].
  cbn [length]. replace (filter _ r) with (@nil reqspec); [cbn; lia|].
  symmetry. assert (G : forall l, ~ In (q_res x) (map q_res l) -> filter (fun y => Nat.eqb (q_res y) q) l = []).
  { clear - E. induction l as [|y l IH]; intros H; [reflexivity|]. cbn. destruct (Nat.eqb_spec (q_res y) q) as [E'|E'].
    - exfalso. apply H. left. congruence.
    - apply IH. intros X. apply H. right. exact X. }
  apply G. exact NI.
Qed.

Lemma filter_map {A B} (f : A -> B) (p : B -> bool) l : filter p (map f l) = map f (filter (fun a => p (f a)) l).
Proof. induction l as [|a r IH]; cbn; [reflexivity|]. rewrite IH. destruct (p (f a)); reflexivity. Qed.

Lemma contention_keys_nodup tasks q : NoDup (map ti_id tasks) -> (forall t, In t tasks -> NoDup (map q_res (ti_requests t))) -> NoDup (map tkey (for_resource q (all_requests tasks))).
Proof.
  induction tasks as [|t r IH]; intros H1 H2; cbn; [constructor|]. inversion H1 as [|a b NI ND]; subst.
  unfold for_resource, all_requests in *. cbn [map concat]. rewrite filter_app, map_app.
  specialize (IH ND (fun t Ht => H2 t (or_intror Ht))).
  rewrite filter_map, map_map. cbn [rb_res rb_req].
  pose proof (nodup_res_filter (ti_requests t) q (H2 t (or_introl eq_refl))) as L.
  change (fun a : reqspec => Nat.eqb (rb_res (RB t a)) q) with (fun a : reqspec => Nat.eqb (q_res a) q).
  destruct (filter (fun a => Nat.eqb (q_res a) q) (ti_requests t)) as [|x [|y z]]; cbn [map app length] in *; [exact IH| |lia].
  constructor; [|exact IH]. intros X. apply in_map_iff in X. destruct X as [rb [E X]]. apply filter_In in X. destruct X as [X _].
  apply (in_all_requests r) in X. destruct X as [t' [q' [Ht' [_ ->]]]]. unfold tkey in E; cbn in E. apply NI. rewrite <- E. apply in_map. exact Ht'.
Qed.

Lemma nodup_filter_map {A B} (f : A -> B) (p : A -> bool) l : NoDup (map f l) -> NoDup (map f (filter p l)).
Proof.
  induction l as [|a r IH]; intros H; cbn; [constructor|]. inversion H as [|x y NI ND]; subst. destruct (p a); cbn; [|auto].
  constructor; [|auto]. intros X. apply NI. apply in_map_iff in X. destruct X as [z [E Z]]. apply filter_In in Z. rewrite <- E. apply in_map. apply Z.
Qed.

Lemma contention_nodup info c q : wf_info info -> NoDup (map tkey (contention info c q)).
Proof.
  intros [W1 W2]. unfold contention. eapply Permutation_NoDup; [apply Permutation_map; apply sort_len_perm|].
  apply contention_keys_nodup.
  - apply nodup_filter_map. rewrite W1. apply seq_NoDup.
  - intros t Ht. apply filter_In in Ht. apply W2. apply Ht.
Qed.

Lemma wf_id info t : wf_info info -> In t info -> nth_error info (ti_id t) = Some t.
Proof.
  intros [W _] H. apply In_nth_error in H. destruct H as [n H]. assert (E : nth_error (map ti_id info) n = Some (ti_id t)) by (apply map_nth_error; exact H).
  rewrite W in E. assert (L : (n < length info)%nat) by (apply nth_error_Some; congruence).
  rewrite (nth_error_nth' (seq 0 (length info)) 0%nat) in E by (rewrite seq_length; exact L). rewrite seq_nth in E by exact L. injection E as E. rewrite <- E. exact H.
Qed.

Lemma wf_nth info i t : wf_info info -> nth_error info i = Some t -> ti_id t = i /\ In t info.
Proof.
  intros [W W2] H. assert (E : nth_error (map ti_id info) i = Some (ti_id t)) by (apply map_nth_error; exact H).
  rewrite W in E. assert (L : (i < length info)%nat) by (apply nth_error_Some; congruence).
  rewrite (nth_error_nth' (seq 0 (length info)) 0%nat) in E by (rewrite seq_length; exact L). rewrite seq_nth in E by exact L. injection E as E.
  split; [symmetry; exact E|eapply nth_error_In; exact H].
Qed.

(** selections keyed by task identifiers *)
Record task_selection (info : list taskinfo) (tsk : nat) (c q : nat) (interval max_total per_source : N) (sel : list (nat * N)) : Prop := {
  ts_sources : forall k l, In (k, l) sel -> k <> tsk /\ exists t x, nth_error info k = Some t /\ ti_cluster t = c /\ In x (ti_requests t) /\ q_res x = q /\ l <= q_len x;
  ts_fits : forall t x, In t info -> In x (ti_requests t) -> q_res x = q -> fits (RB t x) interval (occurrences (ti_id t) sel);
  ts_per_source : forall k, occurrences k sel <= per_source;
  ts_total : N.of_nat (length sel) <= max_total }.

Lemma contention_sorted info c q : sorted_by_length (contention info c q).
Proof. apply sort_len_sorted. Qed.

Lemma prio_excl t x : (Nat.eqb (ti_id t) x || (ti_prio t <? 0)) = Nat.eqb (ti_id t) x.
Proof. destruct (N.ltb_spec (ti_prio t) 0); [lia|apply orb_false_r]. Qed.

Lemma task_selection_safe info tsk c q interval max_total per_source sel : wf_info info ->
  task_selection info tsk c q interval max_total per_source sel ->
  total_length sel <= i_len (bound_blocking (contention info c q) interval max_total per_source tsk 0) /\
  N.of_nat (length sel) <= i_count (bound_blocking (contention info c q) interval max_total per_source tsk 0).
Proof.
  intros W [S1 S2 S3 S4]. unfold bound_blocking. rewrite (bb_loop_greedy tkey), iadd_0_l.
  apply greedy_safe.
  - unfold sources. rewrite map_map. apply (contention_nodup info c q W).
  - apply sources_decreasing, contention_sorted.
  - intros k l H. destruct (S1 k l H) as [NE [t [x [A [B [C [D E]]]]]]]. destruct (wf_nth info k t W A) as [Ei Ht].
    exists (k, avail (fun t => Nat.eqb (ti_id t) tsk || (ti_prio t <? 0)) interval per_source (RB t x), q_len x).
    split; [|split; [reflexivity|exact E]]. unfold sources. apply in_map_iff. exists (RB t x). split; [unfold tkey; cbn; rewrite Ei; reflexivity|].
    apply in_contention. cbn. auto.
  - intros p H. unfold sources in H. apply in_map_iff in H. destruct H as [r [<- H]]. unfold skey, savail; cbn [fst snd].
    apply in_contention in H. destruct H as [H1 [H2 [H3 H4]]].
    destruct (Nat.eqb_spec (ti_id (rb_task r)) tsk) as [E|E].
    + rewrite occ_none; [apply N.le_0_l|]. intros l Hl. destruct (S1 _ _ Hl) as [NE _]. unfold tkey in NE. congruence.
    + apply avail_fits; [apply W; exact H1|apply S3| |rewrite prio_excl; apply Nat.eqb_neq; exact E].
      specialize (S2 _ _ H1 H3 H4). destruct r; exact S2.
  - exact S4.
Qed.

Lemma task_selection_tight info tsk c q interval max_total per_source : wf_info info ->
  exists sel, task_selection info tsk c q interval max_total per_source sel /\
  total_length sel = i_len (bound_blocking (contention info c q) interval max_total per_source tsk 0) /\
  N.of_nat (length sel) = i_count (bound_blocking (contention info c q) interval max_total per_source tsk 0).
Proof.
  intros W. set (ex := fun t => Nat.eqb (ti_id t) tsk || (ti_prio t <? 0)).
  set (src := sources tkey ex interval per_source (contention info c q)). exists (greedy_sel src max_total).
  unfold bound_blocking. rewrite (bb_loop_greedy tkey), iadd_0_l. fold ex. fold src.
  destruct (greedy_sel_value src max_total) as [A [B C]]. split; [|split; assumption].
  assert (ND : NoDup (map skey src)) by (unfold src, sources; rewrite map_map; apply (contention_nodup info c q W)).
  assert (OC : forall r, In r (contention info c q) -> occurrences (tkey r) (greedy_sel src max_total) <= avail ex interval per_source r).
  { intros r H. apply (greedy_sel_occ src ND max_total (tkey r, avail ex interval per_source r, rb_len r)).
    unfold src, sources. apply in_map_iff. exists r. auto. }
  assert (ON : forall k, (forall r, In r (contention info c q) -> tkey r <> k) -> occurrences k (greedy_sel src max_total) = 0).
  { intros k H. apply occ_none. intros l Hl. apply greedy_sel_keys in Hl. destruct Hl as [p [H1 [H2 _]]]. unfold src, sources in H1. apply in_map_iff in H1.
    destruct H1 as [r [<- H1]]. apply (H r H1). exact H2. }
  constructor.
  - intros k l H. apply greedy_sel_keys in H. destruct H as [p [H1 [H2 [H3 H4]]]]. unfold src, sources in H1. apply in_map_iff in H1. destruct H1 as [r [<- H1]].
    unfold skey, slen, savail in *; cbn [fst snd] in *. subst. unfold avail, ex in H4. rewrite prio_excl in H4.
    apply in_contention in H1. destruct H1 as [I1 [I2 [I3 I4]]].
    destruct (Nat.eqb_spec (ti_id (rb_task r)) tsk) as [E|E]; [lia|]. split; [exact E|]. exists (rb_task r), (rb_req r).
    split; [apply wf_id; assumption|]. repeat split; auto. apply N.le_refl.
  - intros t x Ht Hx Eq. apply fits_iff; [cbn; apply W; exact Ht|].
    destruct (Nat.eq_dec (ti_cluster t) c) as [Ec|Ec].
    + assert (Hin : In (RB t x) (contention info c q)) by (apply in_contention; cbn; auto).
      specialize (OC _ Hin). unfold tkey in OC; cbn in OC. unfold avail in OC. destruct (ex (rb_task (RB t x))); lia.
    + rewrite ON; [apply N.le_0_l|]. intros r Hr Ek. apply in_contention in Hr. destruct Hr as [I1 [I2 _]]. unfold tkey in Ek.
      pose proof (wf_id info t W Ht) as N1. pose proof (wf_id info (rb_task r) W I1) as N2. rewrite Ek, N1 in N2. injection N2 as N2. congruence.
  - intros k. destruct (in_dec Nat.eq_dec k (map tkey (contention info c q))) as [I|I].
    + apply in_map_iff in I. destruct I as [r [<- Hr]]. specialize (OC r Hr). unfold avail in OC. destruct (ex (rb_task r)); lia.
    + rewrite ON; [apply N.le_0_l|]. intros r Hr E. apply I. rewrite <- E. apply in_map. exact Hr.
  - rewrite B. exact C.
Qed.

(** * Executions *)
Open Scope Z_scope.

Definition zsum (l : list Z) : Z := fold_right Z.add 0 l.

Lemma zsum_app a b : zsum (a ++ b) = zsum a + zsum b.
Proof. induction a as [|x r IH]; cbn; [reflexivity|]. unfold zsum in *. lia. Qed.

Lemma fop_app {A} (R : A -> A -> Prop) l1 l2 : ForallOrdPairs R (l1 ++ l2) -> ForallOrdPairs R l1 /\ ForallOrdPairs R l2 /\ forall a b, In a l1 -> In b l2 -> R a b.
Proof.
  induction l1 as [|x r IH]; intros H; cbn in *.
  - split; [constructor|split; [exact H|intros a b []]].
  - inversion H as [|y z F P]; subst. destruct (IH P) as [A1 [A2 A3]]. rewrite Forall_app in F. destruct F as [F1 F2].
    split; [constructor; assumption|split; [exact A2|]]. intros a b [<-|Ha] Hb; [rewrite Forall_forall in F2; auto|auto].
Qed.

(** a set of intervals that covers [x, x+n) has total length at least n *)
Definition overlap (x n : Z) (p : Z * Z) : Z := Z.max 0 (Z.min (snd p) (x + n) - Z.max (fst p) x).

Lemma cover_points (l : list (Z * Z)) x : forall n : nat, (forall t, x <= t < x + Z.of_nat n -> exists p, In p l /\ fst p <= t < snd p) ->
  Z.of_nat n <= zsum (map (overlap x (Z.of_nat n)) l).
Proof.
  induction n as [|n IH]; intros H.
  - change (Z.of_nat 0) with 0. clear H. induction l as [|p r IH]; [cbn; lia|]. cbn [map zsum fold_right]. unfold zsum in IH. assert (0 <= overlap x 0 p) by (unfold overlap; lia). lia.
  - assert (IH' := IH (fun t Ht => H t ltac:(lia))). destruct (H (x + Z.of_nat n) ltac:(lia)) as [p [Hp1 Hp2]].
    clear IH H. rewrite Nat2Z.inj_succ in *. set (m := Z.of_nat n) in *. assert (0 <= m) by (subst m; lia). clearbody m. clear n.
    assert (M : forall l : list (Z * Z), zsum (map (overlap x m) l) <= zsum (map (overlap x (Z.succ m)) l)).
    { clear - H. induction l as [|p r IH]; [cbn; lia|]. cbn [map zsum fold_right]. unfold zsum in IH. assert (overlap x m p <= overlap x (Z.succ m) p) by (unfold overlap; lia). lia. }
    assert (G : zsum (map (overlap x m) l) + 1 <= zsum (map (overlap x (Z.succ m)) l)).
    { clear IH'. induction l as [|q r IHl]; [destruct Hp1|]. cbn [map zsum fold_right]. destruct Hp1 as [->|Hp1].
      - specialize (M r). unfold zsum in M. assert (overlap x m p + 1 <= overlap x (Z.succ m) p) by (unfold overlap; lia). lia.
      - specialize (IHl Hp1). unfold zsum in IHl. assert (overlap x m q <= overlap x (Z.succ m) q) by (unfold overlap; lia). lia. }
    lia.
Qed.

Lemma cover_length (l : list (Z * Z)) x y : x <= y -> (forall p, In p l -> fst p <= snd p) -> (forall t, x <= t < y -> exists p, In p l /\ fst p <= t < snd p) ->
  y - x <= zsum (map (fun p => snd p - fst p) l).
Proof.
  intros Hxy Hl H. pose proof (cover_points l x (Z.to_nat (y - x))) as C. rewrite Z2Nat.id in C by lia.
  assert (C' := C (fun t Ht => H t ltac:(lia))). clear C.
  assert (M : zsum (map (overlap x (y - x)) l) <= zsum (map (fun p => snd p - fst p) l)).
  { clear - Hl. induction l as [|p r IH]; [cbn; lia|]. cbn [map zsum fold_right]. assert (IH' := IH (fun q Hq => Hl q (or_intror Hq))). specialize (Hl p (or_introl eq_refl)). unfold zsum in *. assert (overlap x (y - x) p <= snd p - fst p) by (unfold overlap; lia). lia. }
  lia.
Qed.

(** ** Blockers of tagged requests *)
Definition blk (a b : creq) : bool := cr_issue b <? cr_end a.
Definition hits (a : creq) (tr : list (creq * bool)) : Z := Z.of_nat (length (filter (fun b => snd b && blk a (fst b)) tr)).

Fixpoint blockers (tr : list (creq * bool)) : list creq :=
  match tr with
  | [] => []
  | (a, _) :: r => (if existsb (fun b => snd b && blk a (fst b)) r then [a] else []) ++ blockers r
  end.

Definition blocked_by (pre : list creq) (b : creq) : list creq := filter (fun a => blk a b) pre.

Fixpoint bsum (f : creq -> Z) (pre : list creq) (tr : list (creq * bool)) : Z :=
  match tr with
  | [] => 0
  | (b, tag) :: r => (if tag then zsum (map f (blocked_by pre b)) else 0) + bsum f (pre ++ [b]) r
  end.

Fixpoint asum (f : creq -> Z) (tr : list (creq * bool)) : Z :=
  match tr with [] => 0 | (a, _) :: r => f a * hits a r + asum f r end.

Lemma hits_cons a b tag r : hits a ((b, tag) :: r) = (if tag && blk a b then 1 else 0) + hits a r.
Proof. unfold hits; cbn [filter fst snd]. destruct (tag && blk a b); cbn [length]; lia. Qed.

Lemma zsum_blocked f pre b : zsum (map f (blocked_by pre b)) = zsum (map (fun a => f a * (if blk a b then 1 else 0)) pre).
Proof. induction pre as [|a r IH]; cbn; [reflexivity|]. unfold blocked_by in IH. unfold zsum in *. destruct (blk a b); cbn [map fold_right]; lia. Qed.

Lemma bsum_swap f tr : forall pre, bsum f pre tr = zsum (map (fun a => f a * hits a tr) pre) + asum f tr.
Proof.
  induction tr as [|[b tag] r IH]; intros pre; cbn [bsum asum].
  - clear. induction pre as [|a r IH]; [reflexivity|]. cbn [map zsum fold_right]. unfold zsum in IH. cbn [asum] in *. change (hits a []) with 0. lia.
  - rewrite IH, map_app, zsum_app. cbn [map]. unfold zsum at 3. cbn [fold_right].
    assert (E : (if tag then zsum (map f (blocked_by pre b)) else 0) + zsum (map (fun a => f a * hits a r) pre) = zsum (map (fun a => f a * hits a ((b, tag) :: r)) pre)).
    { destruct tag.
      - rewrite zsum_blocked. clear. induction pre as [|a l IH]; cbn [map zsum fold_right]; [reflexivity|]. unfold zsum in *. rewrite hits_cons. cbn [andb]. destruct (blk a b); lia.
      - clear. induction pre as [|a l IH]; cbn [map zsum fold_right]; [reflexivity|]. unfold zsum in *. rewrite hits_cons. cbn [andb]. lia. }
    lia.
Qed.

Lemma existsb_hits a r : existsb (fun b => snd b && blk a (fst b)) r = negb (hits a r =? 0).
Proof.
  unfold hits. induction r as [|b r IH]; [reflexivity|]. cbn [existsb filter]. destruct (snd b && blk a (fst b)); cbn [orb length]; [|exact IH].
  rewrite Nat2Z.inj_succ. destruct (Z.eqb_spec (Z.succ (Z.of_nat (length (filter (fun b => snd b && blk a (fst b)) r)))) 0); [lia|reflexivity].
Qed.

Definition fifo_pair (a b : creq) : Prop := cr_issue a <= cr_issue b /\ cr_end a <= cr_start b.
Definition tags_apart (a b : creq * bool) : Prop := snd a = true -> snd b = true -> apart (fst a) (fst b).

Lemma hits_le_1 a r : (forall c, In c (a :: map fst r) -> cr_issue c <= cr_start c <= cr_end c) ->
  ForallOrdPairs fifo_pair (a :: map fst r) -> ForallOrdPairs tags_apart r -> hits a r <= 1.
Proof.
  intros HT HF HA. unfold hits.
  set (l := filter (fun b => snd b && blk a (fst b)) r). destruct l as [|b1 [|b2 l']] eqn:E; cbn [length]; try lia. exfalso.
  assert (S : exists r1 r2 r3, r = r1 ++ b1 :: r2 ++ b2 :: r3).
  { assert (G : forall (p : creq * bool -> bool) r x l, filter p r = x :: l -> exists r1 r2, r = r1 ++ x :: r2 /\ filter p r2 = l).
    { clear. intros p. induction r as [|y r IH]; intros x l H; cbn in H; [discriminate|]. destruct (p y).
      - injection H as -> <-. exists [], r. auto.
      - destruct (IH _ _ H) as [r1 [r2 [-> E]]]. exists (y :: r1), r2. auto. }
    unfold l in E. apply G in E. destruct E as [r1 [r2 [-> E]]]. apply G in E. destruct E as [r3 [r4 [-> E]]]. exists r1, r3, r4. reflexivity. }
  assert (I1 : In b1 l) by (rewrite E; left; reflexivity). assert (I2 : In b2 l) by (rewrite E; right; left; reflexivity).
  unfold l in I1, I2. apply filter_In in I1, I2. destruct I1 as [J1 K1], I2 as [J2 K2]. apply andb_true_iff in K1, K2. destruct K1 as [T1 B1], K2 as [T2 B2].
  unfold blk in B1, B2. apply Z.ltb_lt in B1, B2.
  destruct S as [r1 [r2 [r3 ->]]].
  apply fop_app in HA. destruct HA as [_ [HA _]]. inversion HA as [|x y F _]; subst. rewrite Forall_app in F. destruct F as [_ F]. inversion F as [|x y F1 _]; subst.
  specialize (F1 T1 T2). inversion HF as [|x y G P]; subst. rewrite map_app in G, P. cbn [map] in G, P. rewrite map_app in G, P. cbn [map] in G, P.
  rewrite Forall_app in G. destruct G as [_ G]. inversion G as [|x y G1 G2]; subst. destruct G1 as [_ G1].
  apply fop_app in P. destruct P as [_ [P _]]. inversion P as [|x y P1 _]; subst. rewrite Forall_app in P1. destruct P1 as [_ P1]. inversion P1 as [|x y P2 _]; subst. destruct P2 as [P2 P3].
  assert (Tb1 := HT (fst b1) (or_intror (in_map fst _ _ J1))). assert (Tb2 := HT (fst b2) (or_intror (in_map fst _ _ J2))).
  unfold apart in F1. lia.
Qed.

Lemma asum_blockers f tr : (forall c, In c (map fst tr) -> cr_issue c <= cr_start c <= cr_end c) ->
  ForallOrdPairs fifo_pair (map fst tr) -> ForallOrdPairs tags_apart tr -> asum f tr = zsum (map f (blockers tr)).
Proof.
  induction tr as [|[a tag] r IH]; intros HT HF HA; cbn [asum blockers]; [reflexivity|].
  cbn [map fst] in HT, HF. rewrite existsb_hits, map_app, zsum_app.
  inversion HF as [|x y F1 F2]; subst. inversion HA as [|x y A1 A2]; subst.
  rewrite IH; [|intros c Hc; apply HT; right; exact Hc|exact F2|exact A2].
  pose proof (hits_le_1 a r HT HF A2) as H1. assert (H0 : 0 <= hits a r) by (unfold hits; lia).
  destruct (Z.eqb_spec (hits a r) 0) as [E|E]; cbn [negb map zsum fold_right]; [rewrite E|replace (hits a r) with 1 by lia]; lia.
Qed.

Lemma blockers_filter p tr : (length (filter p (blockers tr)) <= length (filter p (map fst tr)))%nat.
Proof.
  induction tr as [|[a tag] r IH]; cbn [blockers map fst]; [reflexivity|]. rewrite filter_app, app_length. cbn [filter].
  destruct (existsb _ r); cbn [filter]; destruct (p a); cbn [length]; lia.
Qed.

Lemma blockers_in tr a : In a (blockers tr) -> exists pre post b, map fst tr = pre ++ b :: post /\ In (b, true) tr /\ In a pre /\ cr_issue b < cr_end a.
Proof.
  induction tr as [|[x tag] r IH]; cbn [blockers]; [intros []|]. intros H. apply in_app_iff in H. destruct H as [H|H].
  - destruct (existsb _ r) eqn:E; [|destruct H]. destruct H as [<-|[]]. apply existsb_exists in E. destruct E as [[b tb] [E1 E2]]. apply andb_true_iff in E2.
    destruct E2 as [E2 E3]. cbn in E2. subst tb. cbn [fst] in E3. apply Z.ltb_lt in E3.
    apply in_split in E1 as S. destruct S as [r1 [r2 S]]. exists (x :: map fst r1), (map fst r2), b.
    cbn [map fst]. rewrite S at 1. rewrite map_app. cbn [map fst app]. split; [reflexivity|]. split; [right; exact E1|]. split; [left; reflexivity|exact E3].
  - destruct (IH H) as [pre [post [b [E [A [B C]]]]]]. exists (x :: pre), post, b. cbn [map fst app]. rewrite E. split; [reflexivity|]. split; [right; exact A|]. split; [right; exact B|exact C].
Qed.

Definition dur (a : creq) : Z := cr_end a - cr_start a.
Definition tagged_spin (tr : list (creq * bool)) : Z := fold_right (fun (b : creq * bool) (s : Z) => if snd b then cr_start (fst b) - cr_issue (fst b) + s else s) 0 tr.
Definition tagged_count (tr : list (creq * bool)) : N := N.of_nat (length (filter snd tr)).

Section Trace.
Variables (info : list taskinfo) (procs : N) (irq : option nat) (rel comp : nat -> nat -> Z) (res : nat).
Notation fe := (fifo_execution info procs irq rel comp res).

Lemma spin_bsum tr : forall pre, fe (pre ++ map fst tr) -> tagged_spin tr <= bsum dur pre tr.
Proof.
  induction tr as [|[b tag] r IH]; intros pre H; cbn [tagged_spin fold_right bsum fst snd]; [lia|].
  cbn [map fst] in H. assert (H' := H). replace (pre ++ b :: map fst r) with ((pre ++ [b]) ++ map fst r) in H' by (rewrite <- app_assoc; reflexivity).
  specialize (IH _ H'). unfold tagged_spin in IH. destruct tag; [|lia].
  assert (C : cr_start b - cr_issue b <= zsum (map dur (blocked_by pre b))); [|lia].
  pose proof (fe_times _ _ _ _ _ _ _ H b ltac:(apply in_elt)) as Tb.
  assert (C := cover_length (map (fun a => (cr_start a, cr_end a)) (blocked_by pre b)) (cr_issue b) (cr_start b)).
  rewrite map_map in C. cbn [fst snd] in C. apply C; clear C.
  - lia.
  - intros p Hp. apply in_map_iff in Hp. destruct Hp as [a [<- Ha]]. apply filter_In in Ha. cbn. apply (fe_times _ _ _ _ _ _ _ H a). apply in_app_iff. left. apply Ha.
  - intros t Ht. destruct (fe_handover _ _ _ _ _ _ _ H pre b (map fst r) eq_refl t Ht) as [a [Ha Hat]].
    exists (cr_start a, cr_end a). split; [|exact Hat]. apply in_map_iff. exists a. split; [reflexivity|]. apply filter_In. split; [exact Ha|].
    unfold blk. apply Z.ltb_lt. lia.
Qed.

(** requests that block [b] are outstanding when [b] is issued *)
Lemma blocked_facts pre b post : fe (pre ++ b :: post) ->
  let B := blocked_by pre b in
  (forall a, In a B -> In a pre /\ cr_issue a <= cr_issue b /\ cr_issue b < cr_end a /\ cr_end a <= cr_start b) /\
  NoDup (map cr_task B) /\ (forall a, In a B -> cr_task a <> cr_task b) /\
  (forall t u a, In a B -> nth_error info (cr_task a) = Some t -> nth_error info (cr_task b) = Some u -> ti_cluster t = ti_cluster u -> cr_cpu a <> cr_cpu b) /\
  ForallOrdPairs (fun a a' => forall t u, nth_error info (cr_task a) = Some t -> nth_error info (cr_task a') = Some u -> ti_cluster t = ti_cluster u -> cr_cpu a <> cr_cpu a') B.
Proof.
  intros H B. destruct H as [HT HF HH HS HN HJ HC HP HQ].
  apply fop_app in HF. destruct HF as [HF1 [_ HF2]]. apply fop_app in HP. destruct HP as [HP1 [_ HP2]]. apply fop_app in HQ. destruct HQ as [HQ1 [_ HQ2]].
  assert (Tb := HT b ltac:(apply in_elt)).
  assert (F : forall a, In a B -> In a pre /\ cr_issue a <= cr_issue b /\ cr_issue b < cr_end a /\ cr_end a <= cr_start b).
  { intros a Ha. apply filter_In in Ha. destruct Ha as [Ha Hb]. apply Z.ltb_lt in Hb. destruct (HF2 a b Ha (or_introl eq_refl)). auto. }
  assert (AP : forall a a', In a B -> In a' B -> ~ apart a a').
  { intros a a' Ha Ha' X. apply F in Ha, Ha'. unfold apart in X. lia. }
  assert (APb : forall a, In a B -> ~ apart a b).
  { intros a Ha X. apply F in Ha. unfold apart in X. lia. }
  split; [exact F|]. split; [|split; [|split]].
  - assert (G : forall l, ForallOrdPairs (fun a b => cr_task a = cr_task b -> apart a b) l -> (forall a a', In a l -> In a' l -> ~ apart a a') -> NoDup (map cr_task l)).
    { clear. induction l as [|x r IH]; intros H1 H2; cbn; constructor.
      - intros X. apply in_map_iff in X. destruct X as [y [E Y]]. inversion H1 as [|p q F _]; subst. rewrite Forall_forall in F.
        apply (H2 x y); [left; reflexivity|right; exact Y|]. apply F; auto.
      - inversion H1; subst. apply IH; [assumption|]. intros a a' A1 A2. apply H2; right; assumption. }
    apply G; [|exact AP]. clear - HQ1. unfold B, blocked_by. induction HQ1 as [|x r F P IH]; cbn; [constructor|]. destruct (blk x b); [|exact IH].
    constructor; [|exact IH]. rewrite Forall_forall in *. intros y Hy. apply filter_In in Hy. apply F. apply Hy.
  - intros a Ha E. apply (APb a Ha). apply HQ2; [apply F; exact Ha|left; reflexivity|exact E].
  - intros t u a Ha E1 E2 E3 E4. apply (APb a Ha). apply (HP2 a b (proj1 (F a Ha)) (or_introl eq_refl) t u E1 E2 E3 E4).
  - assert (G : ForallOrdPairs (fun a b0 => forall t u, nth_error info (cr_task a) = Some t -> nth_error info (cr_task b0) = Some u -> ti_cluster t = ti_cluster u -> cr_cpu a = cr_cpu b0 -> apart a b0) B).
    { clear - HP1. unfold B, blocked_by. induction HP1 as [|x r F P IH]; cbn; [constructor|]. destruct (blk x b); [|exact IH].
      constructor; [|exact IH]. rewrite Forall_forall in *. intros y Hy. apply filter_In in Hy. apply F. apply Hy. }
    clear - G AP. clearbody B. induction G as [|x r F P IH]; constructor.
    + rewrite Forall_forall in *. intros y Hy t u E1 E2 E3 E4. apply (AP x y); [left; reflexivity|right; exact Hy|]. apply (F y Hy t u E1 E2 E3 E4).
    + apply IH. intros a a' A1 A2. apply AP; right; assumption.
Qed.

Definition indicator (p : creq -> bool) (a : creq) : Z := if p a then 1 else 0.

Lemma zsum_indicator p l : zsum (map (indicator p) l) = Z.of_nat (length (filter p l)).
Proof. induction l as [|a r IH]; cbn; [reflexivity|]. unfold zsum in IH. rewrite IH. unfold indicator. destruct (p a); cbn [length]; lia. Qed.

Lemma bsum_count p K : 0 <= K -> forall tr pre, fe (pre ++ map fst tr) ->
  (forall pre b post, fe (pre ++ b :: post) -> In (b, true) tr -> Z.of_nat (length (filter p (blocked_by pre b))) <= K) ->
  bsum (indicator p) pre tr <= K * Z.of_N (tagged_count tr).
Proof.
  intros HK tr. induction tr as [|[b tag] r IH]; intros pre H HB; cbn [bsum]; [unfold tagged_count; cbn; lia|].
  assert (H' := H). cbn [map fst] in H'. assert (H2 := H'). replace (pre ++ b :: map fst r) with ((pre ++ [b]) ++ map fst r) in H2 by (rewrite <- app_assoc; reflexivity).
  specialize (IH _ H2). assert (IH' := IH (fun pre b post X Y => HB pre b post X (or_intror Y))). clear IH.
  unfold tagged_count in *; cbn [filter snd]. destruct tag; cbn [length].
  - rewrite zsum_indicator. assert (HB' := HB pre b (map fst r) H' (or_introl eq_refl)). nia.
  - lia.
Qed.
End Trace.

Lemma fop_map_inv {A B} (f : A -> B) (R : B -> B -> Prop) l : ForallOrdPairs R (map f l) -> ForallOrdPairs (fun a b => R (f a) (f b)) l.
Proof.
  induction l as [|a r IH]; intros H; constructor; inversion H as [|x y F P]; subst.
  - rewrite Forall_map in F. exact F.
  - apply IH. exact P.
Qed.

Lemma fop_impl_in {A} (R S : A -> A -> Prop) l : (forall a b, In a l -> In b l -> R a b -> S a b) -> ForallOrdPairs R l -> ForallOrdPairs S l.
Proof.
  intros H F. induction F as [|a r F P IH]; constructor.
  - rewrite Forall_forall in *. intros b Hb. apply H; [left; reflexivity|right; exact Hb|apply F; exact Hb].
  - apply IH. intros x y Hx Hy. apply H; right; assumption.
Qed.

Lemma zsum_cons x l : zsum (x :: l) = x + zsum l.
Proof. reflexivity. Qed.

Lemma zsum_partition (f : creq -> Z) (g : creq -> nat) l n : (forall a, In a l -> (g a < n)%nat) ->
  zsum (map f l) = zsum (map (fun c => zsum (map f (filter (fun a => Nat.eqb (g a) c) l))) (seq 0 n)).
Proof.
  induction l as [|a r IH]; intros H.
  - induction (seq 0 n) as [|c s IHs]; [reflexivity|]. cbn [map]. rewrite zsum_cons, <- IHs. reflexivity.
  - cbn [map]. rewrite zsum_cons, (IH (fun x Hx => H x (or_intror Hx))). clear IH.
    specialize (H a (or_introl eq_refl)).
    assert (G : forall s, NoDup s -> zsum (map (fun c => zsum (map f (filter (fun a0 => Nat.eqb (g a0) c) (a :: r)))) s) =
      (if existsb (Nat.eqb (g a)) s then f a else 0) + zsum (map (fun c => zsum (map f (filter (fun a0 => Nat.eqb (g a0) c) r))) s)).
    { induction s as [|c s IHs]; intros ND; [reflexivity|]. inversion ND as [|x y NI ND']; subst. cbn [map existsb]. rewrite !zsum_cons, (IHs ND').
      cbn [filter]. destruct (Nat.eqb_spec (g a) c) as [E|E]; cbn [map orb].
      - replace (existsb (Nat.eqb (g a)) s) with false; [rewrite zsum_cons; lia|]. symmetry. apply not_true_is_false. intros X. apply existsb_exists in X. destruct X as [y [Y1 Y2]].
        apply Nat.eqb_eq in Y2. apply NI. congruence.
      - lia. }
    rewrite (G _ (seq_NoDup n 0)). replace (existsb (Nat.eqb (g a)) (seq 0 n)) with true; [reflexivity|].
    symmetry. apply existsb_exists. exists (g a). split; [apply in_seq; lia|apply Nat.eqb_refl].
Qed.

Lemma nodup_lt_length (l : list nat) (n : N) : NoDup l -> (forall x, In x l -> (N.of_nat x < n)%N) -> (N.of_nat (length l) <= n)%N.
Proof.
  intros ND H. assert (I : incl l (seq 0 (N.to_nat n))) by (intros x Hx; apply in_seq; specialize (H x Hx); lia).
  pose proof (NoDup_incl_length ND I) as L. rewrite seq_length in L. lia.
Qed.

Lemma nodup_lt_length_avoid (l : list nat) (n : N) y : NoDup l -> (forall x, In x l -> (N.of_nat x < n)%N /\ x <> y) -> (N.of_nat y < n)%N -> (N.of_nat (length l) <= n - 1)%N.
Proof.
  intros ND H Hy. assert (N.of_nat (length (y :: l)) <= n)%N; [|cbn [length] in *; lia].
  apply nodup_lt_length.
  - constructor; [|exact ND]. intros X. apply H in X. lia.
  - intros x [<-|Hx]; [exact Hy|]. apply H in Hx. apply Hx.
Qed.

(** requests grouped by job *)
Lemma group_by_job (l : list creq) (num : nat) : (forall j, (length (filter (fun a => Nat.eqb (cr_job a) j) l) <= num)%nat) ->
  (length l <= length (nodup Nat.eq_dec (map cr_job l)) * num)%nat.
Proof.
  intros H. set (js := nodup Nat.eq_dec (map cr_job l)).
  assert (G : forall js m, NoDup js -> (forall a, In a m -> In (cr_job a) js) -> (forall j, (length (filter (fun a => Nat.eqb (cr_job a) j) m) <= num)%nat) -> (length m <= length js * num)%nat).
  { clear. induction js as [|j js IH]; intros m ND Hin Hn.
    - destruct m as [|a m]; [cbn; lia|]. destruct (Hin a (or_introl eq_refl)).
    - inversion ND as [|x y NI ND']; subst.
      assert (L : length m = (length (filter (fun a => Nat.eqb (cr_job a) j) m) + length (filter (fun a => negb (Nat.eqb (cr_job a) j)) m))%nat).
      { clear. induction m as [|a m IH]; [reflexivity|]. cbn [filter]. destruct (Nat.eqb (cr_job a) j); cbn [negb length]; lia. }
      assert (I := IH (filter (fun a => negb (Nat.eqb (cr_job a) j)) m) ND').
      assert ((length (filter (fun a => negb (Nat.eqb (cr_job a) j)) m) <= length js * num)%nat); [|specialize (Hn j); cbn [length]; lia].
      apply I.
      + intros a Ha. apply filter_In in Ha. destruct Ha as [Ha Hb]. destruct (Hin a Ha) as [E|E]; [|exact E]. rewrite <- E, Nat.eqb_refl in Hb. discriminate.
      + intros i. specialize (Hn i). etransitivity; [|exact Hn]. clear. induction m as [|a m IH]; [reflexivity|]. cbn [filter]. destruct (Nat.eqb (cr_job a) j); cbn [negb filter]; destruct (Nat.eqb (cr_job a) i); cbn [length]; lia. }
  apply G; [apply NoDup_nodup| |exact H].
  intros a Ha. apply nodup_In. apply in_map. exact Ha.
Qed.

Section Main.
Variables (info : list taskinfo) (procs : N) (irq : option nat) (rel comp : nat -> nat -> Z) (res : nat).
Notation fe := (fifo_execution info procs irq rel comp res).
Variable W : wf_info info.
Variable SJ : forall t, In t info -> sporadic_jobs (ti_period t) (ti_response t) (rel (ti_id t)) (comp (ti_id t)).
Variables (tsk : taskinfo) (k : nat) (issued : N).
Variable Htsk : In tsk info.
Variable ttr : list (creq * bool).
Variable H : fe (map fst ttr).
Variable Htag : forall b, In (b, true) ttr -> cr_task b = ti_id tsk /\ cr_job b = k.
Variable Hcount : (tagged_count ttr <= issued)%N.

Definition cluster_of (a : creq) : nat := match nth_error info (cr_task a) with Some t => ti_cluster t | None => 0%nat end.

Lemma ttr_apart : ForallOrdPairs tags_apart ttr.
Proof.
  pose proof (fop_map_inv fst _ _ (fe_sequential _ _ _ _ _ _ _ H)) as F. revert F. apply fop_impl_in.
  intros [a ta] [b tb] Ha Hb F T1 T2. cbn in *. subst. apply F. destruct (Htag a Ha), (Htag b Hb). congruence.
Qed.

Lemma blockers_sum f : zsum (map f (blockers ttr)) = bsum f [] ttr.
Proof.
  rewrite bsum_swap. cbn [map]. change (zsum []) with 0. rewrite asum_blockers; [reflexivity| | |apply ttr_apart].
  - intros c Hc. apply (fe_times _ _ _ _ _ _ _ H c Hc).
  - apply (fe_fifo _ _ _ _ _ _ _ H).
Qed.

Lemma blockers_count p K : (forall pre b post, fe (pre ++ b :: post) -> In (b, true) ttr -> (N.of_nat (length (filter p (blocked_by pre b))) <= K)%N) ->
  (N.of_nat (length (filter p (blockers ttr))) <= issued * K)%N.
Proof.
  intros HB. pose proof (bsum_count info procs irq rel comp res p (Z.of_N K) ltac:(lia) ttr [] H) as C.
  rewrite <- blockers_sum, zsum_indicator in C.
  assert (C' := C (fun pre b post X Y => ltac:(specialize (HB pre b post X Y); lia))). nia.
Qed.

Lemma blocker_facts a : In a (blockers ttr) -> In a (map fst ttr) /\ cr_task a <> ti_id tsk /\
  rel (cr_task a) (cr_job a) < rel (ti_id tsk) k + Z.of_N (ti_response tsk) /\ rel (ti_id tsk) k <= comp (cr_task a) (cr_job a).
Proof.
  intros Ha. apply blockers_in in Ha. destruct Ha as [pre [post [b [E [Hb [Hp Hl]]]]]].
  pose proof H as H'. rewrite E in H'. destruct (blocked_facts _ _ _ _ _ _ pre b post H') as [F1 [F2 [F3 _]]].
  assert (HaB : In a (blocked_by pre b)) by (apply filter_In; split; [exact Hp|unfold blk; apply Z.ltb_lt; exact Hl]).
  destruct (F1 a HaB) as [_ [G1 [G2 G3]]]. specialize (F3 a HaB). destruct (Htag b Hb) as [Tb Jb].
  assert (Ia : In a (pre ++ b :: post)) by (apply in_app_iff; left; exact Hp). assert (Ib : In b (pre ++ b :: post)) by apply in_elt.
  pose proof (fe_job _ _ _ _ _ _ _ H' a Ia) as Ja. pose proof (fe_job _ _ _ _ _ _ _ H' b Ib) as Jb'. rewrite Tb, Jb in Jb'.
  pose proof (proj2 (SJ tsk Htsk) k) as R. pose proof (fe_times _ _ _ _ _ _ _ H' b Ib) as Xb. pose proof (fe_times _ _ _ _ _ _ _ H' a Ia) as Xa.
  rewrite E. split; [exact Ia|]. split; [rewrite <- Tb; exact F3|]. lia.
Qed.

Definition sel_of (c : nat) : list (nat * N) := map (fun a => (cr_task a, Z.to_N (dur a))) (filter (fun a => Nat.eqb (cluster_of a) c) (blockers ttr)).

Lemma occ_sel_of c i : occurrences i (sel_of c) = N.of_nat (length (filter (fun a => Nat.eqb (cluster_of a) c && Nat.eqb (cr_task a) i) (blockers ttr))).
Proof.
  unfold occurrences, sel_of. f_equal. rewrite filter_map, map_length. cbn [fst]. f_equal. generalize (blockers ttr). induction l as [|a r IH]; [reflexivity|]. cbn [filter].
  destruct (Nat.eqb (cluster_of a) c); cbn [filter andb]; [|exact IH]. destruct (Nat.eqb (cr_task a) i); cbn; rewrite IH; reflexivity.
Qed.

Lemma filter_le {A} (p q : A -> bool) l : (forall a, In a l -> p a = true -> q a = true) -> (length (filter p l) <= length (filter q l))%nat.
Proof.
  induction l as [|a r IH]; intros Hpq; [reflexivity|]. cbn. assert (I := IH (fun x Hx => Hpq x (or_intror Hx))). specialize (Hpq a (or_introl eq_refl)).
  destruct (p a); [rewrite Hpq by reflexivity; cbn; lia|destruct (q a); cbn; lia].
Qed.

Lemma sel_selection c : task_selection info (ti_id tsk) c res (ti_response tsk) (climit procs issued irq (ti_cluster tsk) c) issued (sel_of c).
Proof.
  constructor.
  - intros i l Hin. unfold sel_of in Hin. apply in_map_iff in Hin. destruct Hin as [a [E Ha]]. injection E as <- <-. apply filter_In in Ha. destruct Ha as [Ha Hc].
    destruct (blocker_facts a Ha) as [A1 [A2 _]]. split; [exact A2|].
    destruct (fe_spec _ _ _ _ _ _ _ H a A1) as [t [q [N1 [N2 [N3 N4]]]]]. exists t, q. apply Nat.eqb_eq in Hc. unfold cluster_of in Hc. rewrite N1 in Hc.
    repeat split; auto. unfold dur. lia.
  - intros t x Ht Hx Ex. rewrite occ_sel_of.
    set (L := filter (fun a => Nat.eqb (cr_task a) (ti_id t)) (blockers ttr)).
    assert (LE : (length (filter (fun a => Nat.eqb (cluster_of a) c && Nat.eqb (cr_task a) (ti_id t)) (blockers ttr)) <= length L)%nat).
    { apply filter_le. intros a _ X. apply andb_true_iff in X. apply X. }
    assert (GJ : (length L <= length (nodup Nat.eq_dec (map cr_job L)) * N.to_nat (q_num x))%nat).
    { apply group_by_job. intros j. pose proof (fe_number _ _ _ _ _ _ _ H (ti_id t) j t x (wf_id info t W Ht) Hx Ex) as NB.
      pose proof (blockers_filter (is_job (ti_id t) j) ttr) as BF.
      assert (length (filter (fun a => Nat.eqb (cr_job a) j) L) = length (filter (is_job (ti_id t) j) (blockers ttr))); [|lia].
      unfold L. clear. generalize (blockers ttr). induction l as [|a r IH]; [reflexivity|]. cbn [filter]. unfold is_job at 1. destruct (Nat.eqb (cr_task a) (ti_id t)); cbn [filter andb]; [|exact IH].
      destruct (Nat.eqb (cr_job a) j); cbn [length]; rewrite IH; reflexivity. }
    assert (JB : (N.of_nat (length (nodup Nat.eq_dec (map cr_job L))) <= get_max_num_jobs t (ti_response tsk))%N).
    { apply (jobs_safe t (rel (ti_id t)) (comp (ti_id t)) (rel (ti_id tsk) k)).
      - apply W; exact Ht.
      - apply SJ; exact Ht.
      - apply NoDup_nodup.
      - intros j Hj. apply nodup_In in Hj. apply in_map_iff in Hj. destruct Hj as [a [<- Ha]]. apply filter_In in Ha. destruct Ha as [Ha Et]. apply Nat.eqb_eq in Et.
        destruct (blocker_facts a Ha) as [_ [_ [B1 B2]]]. rewrite Et in B1, B2. split; assumption. }
    apply fits_iff; [cbn; apply W; exact Ht|]. unfold get_max_num_requests; cbn [rb_task rb_req]. nia.
  - intros i. rewrite occ_sel_of.
    assert (C := blockers_count (fun a => Nat.eqb (cluster_of a) c && Nat.eqb (cr_task a) i) 1). rewrite N.mul_1_r in C. apply C. clear C.
    intros pre b post Hfe Hb. destruct (blocked_facts _ _ _ _ _ _ pre b post Hfe) as [_ [ND _]].
    assert (LE : (length (filter (fun a => Nat.eqb (cluster_of a) c && Nat.eqb (cr_task a) i) (blocked_by pre b)) <= length (filter (fun a => Nat.eqb (cr_task a) i) (blocked_by pre b)))%nat).
    { apply filter_le. intros a _ X. apply andb_true_iff in X. apply X. }
    assert (L1 : (length (filter (fun a => Nat.eqb (cr_task a) i) (blocked_by pre b)) <= 1)%nat); [|lia].
    clear - ND. induction (blocked_by pre b) as [|a r IH]; [cbn; lia|]. cbn [map] in ND. inversion ND as [|x y NI ND']; subst. cbn [filter].
    destruct (Nat.eqb_spec (cr_task a) i) as [E|E]; [|auto]. cbn [length]. replace (filter (fun a0 => Nat.eqb (cr_task a0) i) r) with (@nil creq); [cbn; lia|].
    symmetry. clear - NI E. induction r as [|z r IH]; [reflexivity|]. cbn in *. destruct (Nat.eqb_spec (cr_task z) i) as [E'|E'].
    + exfalso. apply NI. left. congruence.
    + apply IH. intros X. apply NI. right. exact X.
  - unfold sel_of. rewrite map_length. unfold climit. apply blockers_count.
    intros pre b post Hfe Hb. destruct (blocked_facts _ _ _ _ _ _ pre b post Hfe) as [F1 [F2 [F3 [F4 F5]]]].
    destruct (Htag b Hb) as [Tb _]. pose proof (wf_id info tsk W Htsk) as Nt.
    set (M := filter (fun a => Nat.eqb (cluster_of a) c) (blocked_by pre b)).
    assert (MI : forall a, In a M -> In a (blocked_by pre b) /\ exists t, nth_error info (cr_task a) = Some t /\ ti_cluster t = c).
    { intros a Ha. apply filter_In in Ha. destruct Ha as [Ha Hc]. split; [exact Ha|]. destruct (F1 a Ha) as [Hp _].
      destruct (fe_spec _ _ _ _ _ _ _ Hfe a ltac:(apply in_app_iff; left; exact Hp)) as [t [q [N1 _]]]. exists t. split; [exact N1|]. apply Nat.eqb_eq in Hc. unfold cluster_of in Hc. rewrite N1 in Hc. exact Hc. }
    assert (NDc : NoDup (map cr_cpu M)).
    { assert (P5 : ForallOrdPairs (fun a a' => cr_cpu a <> cr_cpu a') M).
      { unfold M. assert (P : ForallOrdPairs (fun a a' => forall t u, nth_error info (cr_task a) = Some t -> nth_error info (cr_task a') = Some u -> ti_cluster t = ti_cluster u -> cr_cpu a <> cr_cpu a') M).
        { unfold M. clear - F5. induction F5 as [|x r F P IH]; cbn; [constructor|]. destruct (Nat.eqb (cluster_of x) c); [|exact IH].
          constructor; [|exact IH]. rewrite Forall_forall in *. intros y Hy. apply filter_In in Hy. apply F. apply Hy. }
        revert P. fold M. apply fop_impl_in. intros a a' Ha Ha' P. destruct (MI a Ha) as [_ [t [T1 T2]]]. destruct (MI a' Ha') as [_ [u [U1 U2]]]. apply (P t u T1 U1). congruence. }
      clear - P5. induction P5 as [|x r F P IH]; cbn; constructor; [|exact IH]. intros X. apply in_map_iff in X. destruct X as [y [E Y]]. rewrite Forall_forall in F. apply (F y Y). congruence. }
    assert (LT : forall x, In x (map cr_cpu M) -> (N.of_nat x < available procs irq c)%N).
    { intros x Hx. apply in_map_iff in Hx. destruct Hx as [a [<- Ha]]. destruct (MI a Ha) as [Hb' [t [T1 T2]]]. destruct (F1 a Hb') as [Hp _]. rewrite <- T2.
      apply (fe_cpu _ _ _ _ _ _ _ Hfe a t); [apply in_app_iff; left; exact Hp|exact T1]. }
    rewrite <- (map_length cr_cpu M). cbv zeta. destruct (Nat.eqb_spec (ti_cluster tsk) c) as [Ec|Ec].
    + apply (nodup_lt_length_avoid _ _ (cr_cpu b) NDc).
      * intros x Hx. split; [apply LT; exact Hx|]. apply in_map_iff in Hx. destruct Hx as [a [<- Ha]]. destruct (MI a Ha) as [Hb' [t [T1 T2]]].
        apply (F4 t tsk a Hb' T1); [rewrite Tb; exact Nt|congruence].
      * rewrite <- Ec. apply (fe_cpu _ _ _ _ _ _ _ Hfe b tsk); [apply in_elt|rewrite Tb; exact Nt].
    + apply (nodup_lt_length _ _ NDc LT).
Qed.

Theorem tagged_spin_bound : tagged_spin ttr <= Z.of_N (i_len (np_fifo_per_resource tsk (cluster_contention info) procs res issued irq)).
Proof.
  pose proof (spin_bsum info procs irq rel comp res ttr [] H) as S. rewrite <- blockers_sum in S.
  rewrite np_fifo_eq; cbn [i_len]. etransitivity; [exact S|].
  rewrite (zsum_partition dur cluster_of (blockers ttr) (num_clusters info)).
  - generalize (seq 0 (num_clusters info)). induction l as [|c r IH]; [cbn; lia|]. cbn [map zsum sumN fold_right]. unfold zsum, sumN in IH.
    assert (C : zsum (map dur (filter (fun a => Nat.eqb (cluster_of a) c) (blockers ttr))) <= Z.of_N (total_length (sel_of c))).
    { unfold sel_of. clear. generalize (filter (fun a => Nat.eqb (cluster_of a) c) (blockers ttr)). induction l as [|a l IH]; [cbn; lia|]. cbn [map zsum fold_right total_length snd].
      unfold zsum, total_length in IH. lia. }
    pose proof (proj1 (task_selection_safe _ _ _ _ _ _ _ _ W (sel_selection c))) as B. unfold zsum in C. unfold zsum. lia.
  - intros a Ha. destruct (blocker_facts a Ha) as [A1 _]. destruct (fe_spec _ _ _ _ _ _ _ H a A1) as [t [q [N1 _]]]. unfold cluster_of. rewrite N1.
    apply cluster_lt. eapply nth_error_In; exact N1.
Qed.
End Main.

(** * The spinning of a job *)
Lemma spin_time_tagged i k tr : spin_time i k tr = tagged_spin (map (fun c => (c, is_job i k c)) tr).
Proof. unfold spin_time, tagged_spin. induction tr as [|c r IH]; cbn [map fold_right fst snd]; [reflexivity|]. rewrite IH. reflexivity. Qed.

Lemma map_fst_tag (f : creq -> bool) tr : map fst (map (fun c => (c, f c)) tr) = tr.
Proof. rewrite map_map. cbn. apply map_id. Qed.

Theorem spin_resource_safe info procs irq rel comp res tr tsk q k :
  wf_info info -> (forall t, In t info -> sporadic_jobs (ti_period t) (ti_response t) (rel (ti_id t)) (comp (ti_id t))) ->
  fifo_execution info procs irq rel comp res tr -> In tsk info -> In q (ti_requests tsk) -> q_res q = res ->
  spin_time (ti_id tsk) k tr <= Z.of_N (i_len (np_fifo_per_resource tsk (cluster_contention info) procs res (q_num q) irq)).
Proof.
  intros W SJ H Ht Hq Er. rewrite spin_time_tagged. apply (tagged_spin_bound info procs irq rel comp res W SJ tsk k (q_num q) Ht).
  - rewrite map_fst_tag. exact H.
  - intros b Hb. apply in_map_iff in Hb. destruct Hb as [c [E _]]. injection E as <- E. unfold is_job in E. apply andb_true_iff in E. destruct E as [E1 E2].
    apply Nat.eqb_eq in E1, E2. auto.
  - unfold tagged_count. rewrite filter_map, map_length. cbn [snd]. apply (fe_number _ _ _ _ _ _ _ H (ti_id tsk) k tsk q (wf_id info tsk W Ht) Hq Er).
Qed.

(** a single request *)
Theorem request_span_safe info procs irq rel comp res pre b post tsk :
  wf_info info -> (forall t, In t info -> sporadic_jobs (ti_period t) (ti_response t) (rel (ti_id t)) (comp (ti_id t))) ->
  fifo_execution info procs irq rel comp res (pre ++ b :: post) -> In tsk info -> cr_task b = ti_id tsk ->
  cr_start b - cr_issue b <= Z.of_N (i_len (np_fifo_per_resource tsk (cluster_contention info) procs res 1 irq)).
Proof.
  intros W SJ H Ht Et. set (ttr := map (fun c => (c, false)) pre ++ (b, true) :: map (fun c => (c, false)) post).
  assert (E : map fst ttr = pre ++ b :: post).
  { unfold ttr. rewrite map_app. cbn [map fst]. rewrite !map_map. cbn [fst]. rewrite !map_id. reflexivity. }
  assert (S : tagged_spin ttr = cr_start b - cr_issue b).
  { unfold ttr, tagged_spin. rewrite fold_right_app. cbn [fold_right fst snd].
    assert (Z0 : forall (l : list creq) x, fold_right (fun (b : creq * bool) (s : Z) => if snd b then cr_start (fst b) - cr_issue (fst b) + s else s) x (map (fun c => (c, false)) l) = x) by (intros l x; induction l; cbn; auto).
    rewrite !Z0. lia. }
  rewrite <- S. apply (tagged_spin_bound info procs irq rel comp res W SJ tsk (cr_job b) 1 Ht).
  - rewrite E. exact H.
  - intros c Hc. unfold ttr in Hc. apply in_app_iff in Hc. destruct Hc as [Hc|[Hc|Hc]].
    + apply in_map_iff in Hc. destruct Hc as [x [X _]]. discriminate.
    + injection Hc as <-. auto.
    + apply in_map_iff in Hc. destruct Hc as [x [X _]]. discriminate.
  - unfold tagged_count, ttr. rewrite filter_app. cbn [filter snd].
    assert (Z0 : forall l : list creq, filter snd (map (fun c => (c, false)) l) = []) by (induction l; cbn; auto). rewrite !Z0. cbn. lia.
Qed.
