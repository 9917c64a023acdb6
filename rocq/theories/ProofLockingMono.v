(** Task-level bounds of the spin-lock analyses: soundness, monotonicity, zero contention. *)
From Coq Require Import NArith ZArith List Bool Sorted Permutation Lia Arith.
From Verif Require Import ModelLocking SpecLocking ProofLocking ProofSpin.
Import ListNotations.
Open Scope N_scope.

(** * Monotonicity of the per-resource bound *)
Lemma num_clusters_le info n : (forall t, In t info -> (ti_cluster t < n)%nat) -> (num_clusters info <= n)%nat.
Proof.
  unfold num_clusters, split_by_cluster. cbn [repeat].
  assert (G : forall (l : list taskinfo) v, (length v <= n)%nat -> (forall t, In t l -> (ti_cluster t < n)%nat) -> (length (fold_left (fun clusters t => push_at (ti_cluster t) t clusters) l v) <= n)%nat).
  { induction l as [|t r IH]; intros v Hv H; cbn [fold_left]; [exact Hv|]. apply IH; [|intros x Hx; apply H; right; exact Hx].
    rewrite push_at_length. specialize (H t (or_introl eq_refl)). lia. }
  apply G. cbn; lia.
Qed.

Lemma num_clusters_mono info info' : info_le info info' -> (num_clusters info <= num_clusters info')%nat.
Proof.
  intros H. apply num_clusters_le. intros t Ht. destruct (H t Ht) as [t' [H1 [_ [H2 _]]]]. rewrite H2. apply cluster_lt. exact H1.
Qed.

Lemma fits_mono t x t' x' interval interval' n : task_le t t' -> req_le x x' -> 0 < ti_period t' -> interval <= interval' -> fits (RB t x) interval n -> fits (RB t' x') interval' n.
Proof.
  intros [_ [_ [_ [P [R _]]]]] [_ [Q _]] H0 HI [j [H1 H2]]. exists j. cbn [rb_task rb_req] in *. split; [nia|]. destruct H2 as [H2|H2]; [left; exact H2|right; nia].
Qed.

Lemma task_selection_mono info info' i c q interval interval' total total' src src' sel : wf_info info -> wf_info info' -> info_le info info' ->
  interval <= interval' -> total <= total' -> src <= src' ->
  task_selection info i c q interval total src sel -> task_selection info' i c q interval' total' src' sel.
Proof.
  intros W W' L HI HT HS [S1 S2 S3 S4]. constructor.
  - intros k l H. destruct (S1 k l H) as [NE [t [x [A [B [C [D E]]]]]]]. split; [exact NE|].
    destruct (wf_nth info k t W A) as [Ei It]. destruct (L t It) as [t' [It' [T1 [T2 [T3 [T4 [T5 T6]]]]]]]. destruct (T6 x C) as [x' [C' [Q1 [Q2 Q3]]]].
    exists t', x'. split; [rewrite <- Ei, T1; apply wf_id; assumption|]. repeat split; try congruence. lia.
  - intros t' x' It' Hx' Ex'. destruct (N.eq_dec (occurrences (ti_id t') sel) 0) as [Z|Z].
    + rewrite Z. exists 0. split; [lia|left; reflexivity].
    + assert (EX : exists l, In (ti_id t', l) sel).
      { unfold occurrences in Z. destruct (filter (fun p => Nat.eqb (fst p) (ti_id t')) sel) as [|[a l] r] eqn:E; [cbn in Z; lia|].
        assert (I : In (a, l) (filter (fun p => Nat.eqb (fst p) (ti_id t')) sel)) by (rewrite E; left; reflexivity). apply filter_In in I. destruct I as [I J]. cbn in J. apply Nat.eqb_eq in J. subst. exists l. exact I. }
      destruct EX as [l Hl]. destruct (S1 _ _ Hl) as [_ [t [x [A [B [C [D E]]]]]]]. destruct (wf_nth info _ t W A) as [Ei It].
      destruct (L t It) as [t2 [It2 TL]]. assert (TL' := TL). destruct TL' as [T1 [T2 [T3 [T4 [T5 T6]]]]]. destruct (T6 x C) as [x2 [C2 QL]].
      assert (t2 = t') by (pose proof (wf_id info' t2 W' It2) as U1; pose proof (wf_id info' t' W' It') as U2; rewrite <- T1, Ei, U2 in U1; congruence). subst t2.
      assert (x2 = x').
      { destruct W' as [_ W2]. destruct (W2 t' It') as [_ ND]. destruct QL as [Q1 _]. assert (Eq : q_res x2 = q_res x') by congruence.
        clear - ND C2 Hx' Eq. induction (ti_requests t') as [|y r IH]; [destruct C2|]. cbn in ND. inversion ND as [|p1 p2 NI ND']; subst.
        destruct C2 as [->|C2], Hx' as [->|Hx']; auto.
        - exfalso. apply NI. rewrite Eq. apply in_map. exact Hx'.
        - exfalso. apply NI. rewrite <- Eq. apply in_map. exact C2. }
      subst x2. apply (fits_mono t x t' x' interval interval' _ TL QL); [apply W'; exact It'|exact HI|]. rewrite <- Ei. apply S2; [exact It|exact C|exact D].
  - intros k. specialize (S3 k). lia.
  - lia.
Qed.

Lemma available_mono procs procs' irq c : procs <= procs' -> available procs irq c <= available procs' irq c.
Proof. intros H. unfold available. destruct irq as [i|]; [destruct (Nat.eqb i c)|]; lia. Qed.

Lemma available_irq procs irq c : available procs irq c <= available procs None c.
Proof. unfold available. destruct irq as [i|]; [destruct (Nat.eqb i c)|]; lia. Qed.

Lemma climit_mono procs procs' issued issued' irq own c : procs <= procs' -> issued <= issued' -> climit procs issued irq own c <= climit procs' issued' irq own c.
Proof.
  intros H1 H2. unfold climit; cbv zeta. pose proof (available_mono procs procs' irq c H1). apply N.mul_le_mono; [exact H2|]. destruct (Nat.eqb own c); lia.
Qed.

Lemma climit_irq procs issued irq own c : climit procs issued irq own c <= climit procs issued None own c.
Proof. unfold climit; cbv zeta. pose proof (available_irq procs irq c). apply N.mul_le_mono_l. destruct (Nat.eqb own c); lia. Qed.

Lemma sumN_map_le (f g : nat -> N) l : (forall x, In x l -> f x <= g x) -> sumN (map f l) <= sumN (map g l).
Proof. induction l as [|x r IH]; intros H; cbn; [lia|]. pose proof (H x (or_introl eq_refl)). specialize (IH (fun y Hy => H y (or_intror Hy))). unfold sumN in IH. lia. Qed.

Lemma sumN_seq_extend (f : nat -> N) n m : (n <= m)%nat -> sumN (map f (seq 0 n)) <= sumN (map f (seq 0 m)).
Proof. intros H. replace m with (n + (m - n))%nat by lia. rewrite seq_app, map_app, sumN_app. lia. Qed.

Theorem np_fifo_mono info info' tsk tsk' procs procs' q issued issued' irq : wf_info info -> wf_info info' -> info_le info info' -> task_le tsk tsk' ->
  procs <= procs' -> issued <= issued' ->
  i_len (np_fifo_per_resource tsk (cluster_contention info) procs q issued irq) <= i_len (np_fifo_per_resource tsk' (cluster_contention info') procs' q issued' irq).
Proof.
  intros W W' L [T1 [T2 [_ [_ [T5 _]]]]] HP HI. rewrite !np_fifo_eq; cbn [i_len].
  etransitivity; [|apply (sumN_seq_extend _ (num_clusters info)), num_clusters_mono, L].
  apply sumN_map_le. intros c _. rewrite <- T1, <- T2.
  destruct (task_selection_tight info (ti_id tsk) c q (ti_response tsk) (climit procs issued irq (ti_cluster tsk) c) issued W) as [sel [S [E _]]].
  rewrite <- E. apply (proj1 (task_selection_safe info' (ti_id tsk) c q _ _ _ sel W' (task_selection_mono info info' _ _ _ _ _ _ _ _ _ sel W W' L T5 (climit_mono procs procs' issued issued' irq _ c HP HI) HI S))).
Qed.

Lemma np_fifo_irq info tsk procs q issued irq : i_len (np_fifo_per_resource tsk (cluster_contention info) procs q issued irq) <= i_len (np_fifo_per_resource tsk (cluster_contention info) procs q issued None).
Proof.
  rewrite !np_fifo_eq; cbn [i_len]. apply sumN_map_le. intros c _. unfold bound_blocking. rewrite !(bb_loop_greedy tkey), !iadd_0_l.
  apply (proj1 (greedy_mono _ _ _ (climit_irq procs issued irq (ti_cluster tsk) c))).
Qed.

Lemma np_fifo_zero info tsk procs q issued irq : (forall t x, In t info -> ti_id t <> ti_id tsk -> In x (ti_requests t) -> q_res x <> q) ->
  np_fifo_per_resource tsk (cluster_contention info) procs q issued irq = inter0.
Proof.
  intros H. rewrite np_fifo_eq.
  assert (Z : forall c, bound_blocking (contention info c q) (ti_response tsk) (climit procs issued irq (ti_cluster tsk) c) issued (ti_id tsk) 0 = inter0).
  { intros c. unfold bound_blocking. rewrite (bb_loop_greedy tkey), iadd_0_l. unfold sources.
    assert (G : forall l cap, (forall r, In r l -> Nat.eqb (ti_id (rb_task r)) (ti_id tsk) = true) ->
      greedy (map (fun r => (tkey r, avail (fun t => Nat.eqb (ti_id t) (ti_id tsk) || (ti_prio t <? 0)) (ti_response tsk) issued r, rb_len r)) l) cap = inter0).
    { induction l as [|r l IH]; intros cap HL; [reflexivity|]. cbn [map greedy]. unfold savail, slen; cbn [fst snd]. unfold avail.
      rewrite (HL r (or_introl eq_refl)). cbn [orb]. rewrite N.min_0_l, N.sub_0_r, IH by (intros x Hx; apply HL; right; exact Hx). reflexivity. }
    apply G. intros r Hr. apply in_contention in Hr. destruct Hr as [H1 [_ [H3 H4]]]. apply Nat.eqb_eq.
    destruct (Nat.eq_dec (ti_id (rb_task r)) (ti_id tsk)) as [E|E]; [exact E|]. exfalso. apply (H (rb_task r) (rb_req r) H1 E H3 H4). }
  assert (S : forall l : list nat, sumN (map (fun c => i_count (bound_blocking (contention info c q) (ti_response tsk) (climit procs issued irq (ti_cluster tsk) c) issued (ti_id tsk) 0)) l) = 0 /\
     sumN (map (fun c => i_len (bound_blocking (contention info c q) (ti_response tsk) (climit procs issued irq (ti_cluster tsk) c) issued (ti_id tsk) 0)) l) = 0).
  { induction l as [|c r [I1 I2]]; [split; reflexivity|]. cbn [map sumN fold_right]. unfold sumN in *. rewrite I1, I2, Z. split; reflexivity. }
  destruct (S (seq 0 (num_clusters info))) as [-> ->]. reflexivity.
Qed.

(** * Per-task results *)
Definition span1 (info : list taskinfo) (procs : N) (irq : option nat) (tsk : taskinfo) (q : reqspec) : interf :=
  iadd (if negb (q_num q =? 1) then np_fifo_per_resource tsk (cluster_contention info) procs (q_res q) 1 None
        else np_fifo_per_resource tsk (cluster_contention info) procs (q_res q) (q_num q) irq) (Inter 1 (q_len q)).

Definition maxN (l : list N) : N := fold_right N.max 0 l.

Lemma imax_len a b : i_len (imax a b) = N.max (i_len a) (i_len b).
Proof.
  unfold imax, ilt. destruct (N.ltb_spec (i_len a) (i_len b)); cbn [orb]; [lia|].
  destruct (N.eqb_spec (i_len a) (i_len b)); cbn [andb]; [destruct (i_count a <? i_count b)|]; lia.
Qed.

Lemma fold_imax {A} (g : A -> interf) l : forall acc, i_len (fold_left (fun b x => imax b (g x)) l acc) = N.max (i_len acc) (maxN (map (fun x => i_len (g x)) l)).
Proof.
  induction l as [|x r IH]; intros acc; cbn [fold_left map maxN fold_right]; [lia|]. rewrite IH, imax_len. unfold maxN. lia.
Qed.

Definition remote_len info procs irq tsk : N := sumN (map (fun q => i_len (np_fifo_per_resource tsk (cluster_contention info) procs (q_res q) (q_num q) irq)) (ti_requests tsk)).
Definition span_len info procs irq tsk : N := maxN (map (fun q => i_len (span1 info procs irq tsk q)) (ti_requests tsk)).

Lemma omlp_step_fold info procs irq tsk l : forall b s, 
  i_len (fst (fold_left (clustered_omlp_step procs irq (cluster_contention info) tsk) l (b, s))) = i_len b + sumN (map (fun q => i_len (np_fifo_per_resource tsk (cluster_contention info) procs (q_res q) (q_num q) irq)) l) /\
  i_len (snd (fold_left (clustered_omlp_step procs irq (cluster_contention info) tsk) l (b, s))) = N.max (i_len s) (maxN (map (fun q => i_len (span1 info procs irq tsk q)) l)).
Proof.
  induction l as [|q r IH]; intros b s; cbn [fold_left map sumN maxN fold_right]; [split; cbn; lia|].
  unfold clustered_omlp_step at 2 4. cbv zeta. destruct (IH (iadd b (np_fifo_per_resource tsk (cluster_contention info) procs (q_res q) (q_num q) irq)) (imax s (span1 info procs irq tsk q))) as [A B].
  unfold span1 in *. rewrite A, B. rewrite imax_len. unfold iadd at 1; cbn [i_len]. unfold sumN, maxN. split; lia.
Qed.

Definition raw_bounds (info : list taskinfo) (procs : N) (irq : option nat) (tsk : taskinfo) : bounds :=
  let '(bterm, span) := fold_left (clustered_omlp_step procs irq (cluster_contention info) tsk) (ti_requests tsk) (inter0, inter0) in
  BB bterm span inter0 bterm inter0.

Lemma raw_lens info procs irq tsk : i_len (bb_remote (raw_bounds info procs irq tsk)) = remote_len info procs irq tsk /\
  i_len (bb_block (raw_bounds info procs irq tsk)) = remote_len info procs irq tsk /\ i_len (bb_span (raw_bounds info procs irq tsk)) = span_len info procs irq tsk.
Proof.
  unfold raw_bounds. pose proof (omlp_step_fold info procs irq tsk (ti_requests tsk) inter0 inter0) as [A B].
  destruct (fold_left _ (ti_requests tsk) (inter0, inter0)) as [bt sp]. cbn [fst snd] in A, B. cbn [bb_remote bb_block bb_span]. rewrite A, B. cbn [i_len inter0]. unfold remote_len, span_len. repeat split; lia.
Qed.

Lemma omlp_bounds_eq info procs irq : clustered_omlp_bounds info procs irq = charge_arrival_blocking (map (fun t => (t, raw_bounds info procs irq t)) info).
Proof.
  unfold clustered_omlp_bounds. cbv zeta. f_equal. apply map_ext. intros t. unfold raw_bounds. destruct (fold_left _ (ti_requests t) (inter0, inter0)) as [bt sp]. reflexivity.
Qed.

Definition local_lower (info : list taskinfo) (tsk : taskinfo) : list taskinfo :=
  filter (fun t => negb (Nat.eqb (ti_id t) (ti_id tsk)) && (Nat.eqb (ti_cluster t) (ti_cluster tsk) && (ti_prio tsk <=? ti_prio t))) info.

Lemma max_span_len info (f : taskinfo -> bounds) tsk : i_len (max_local_request_span tsk (map (fun t => (t, f t)) info)) = maxN (map (fun t => i_len (bb_span (f t))) (local_lower info tsk)).
Proof.
  unfold max_local_request_span, local_lower.
  assert (G : forall l acc, i_len (fold_left (fun span p => let '(t, b) := p in if negb (Nat.eqb (ti_id t) (ti_id tsk)) && (Nat.eqb (ti_cluster t) (ti_cluster tsk) && (ti_prio tsk <=? ti_prio t)) then imax span (bb_span b) else span) (map (fun t => (t, f t)) l) acc) =
    N.max (i_len acc) (maxN (map (fun t => i_len (bb_span (f t))) (filter (fun t => negb (Nat.eqb (ti_id t) (ti_id tsk)) && (Nat.eqb (ti_cluster t) (ti_cluster tsk) && (ti_prio tsk <=? ti_prio t))) l)))).
  { induction l as [|t r IH]; intros acc; cbn [map fold_left filter]; [cbn; lia|]. rewrite IH. destruct (negb _ && _); [|reflexivity]. rewrite imax_len. cbn [map maxN fold_right]. unfold maxN. lia. }
  rewrite G. cbn. lia.
Qed.

Definition arrival_len info procs irq tsk : N := maxN (map (fun t => span_len info procs irq t) (local_lower info tsk)).

(** the four components of a task's result *)
Lemma omlp_result info procs irq i tsk : nth_error info i = Some tsk -> exists b, nth_error (clustered_omlp_bounds info procs irq) i = Some b /\
  i_len (bb_remote b) = remote_len info procs irq tsk /\ i_len (bb_span b) = span_len info procs irq tsk /\
  i_len (bb_arrival b) = arrival_len info procs irq tsk /\ i_len (bb_block b) = remote_len info procs irq tsk + arrival_len info procs irq tsk.
Proof.
  intros H. rewrite omlp_bounds_eq. unfold charge_arrival_blocking.
  pose proof (map_nth_error (fun t => (t, raw_bounds info procs irq t)) i info H) as E1. cbv beta in E1.
  rewrite (map_nth_error _ _ _ E1). eexists. split; [reflexivity|]. cbv beta iota zeta. cbn [bb_remote bb_span bb_arrival bb_block].
  destruct (raw_lens info procs irq tsk) as [A [B C]].
  assert (E : i_len (max_local_request_span tsk (map (fun t => (t, raw_bounds info procs irq t)) info)) = arrival_len info procs irq tsk).
  { rewrite max_span_len. unfold arrival_len. f_equal. apply map_ext. intros t. apply raw_lens. }
  repeat split; [exact A|exact C|exact E|]. unfold iadd; cbn [i_len]. rewrite B, E. reflexivity.
Qed.

(** * Monotonicity of the results *)
Lemma maxN_map_le_ex {A B} (f : A -> N) (g : B -> N) l l' : (forall x, In x l -> exists y, In y l' /\ f x <= g y) -> maxN (map f l) <= maxN (map g l').
Proof.
  intros H. assert (M : forall y, In y l' -> g y <= maxN (map g l')).
  { clear. induction l' as [|z r IH]; intros y Hy; [destruct Hy|]. cbn [map maxN fold_right]. destruct Hy as [<-|Hy]; [lia|]. specialize (IH y Hy). unfold maxN in IH. lia. }
  induction l as [|x r IH]; cbn [map maxN fold_right]; [lia|]. destruct (H x (or_introl eq_refl)) as [y [Hy Hle]]. specialize (M y Hy).
  assert (IH' := IH (fun z Hz => H z (or_intror Hz))). unfold maxN in IH', M. unfold maxN. lia.
Qed.

Lemma sumN_inj_le (f g : reqspec -> N) l : forall l', NoDup (map q_res l) -> (forall x, In x l -> exists y, In y l' /\ q_res x = q_res y /\ f x <= g y) -> sumN (map f l) <= sumN (map g l').
Proof.
  induction l as [|x r IH]; intros l' ND H; [cbn; lia|]. inversion ND as [|a b NI ND']; subst.
  destruct (H x (or_introl eq_refl)) as [y [Hy [E Hle]]]. apply in_split in Hy. destruct Hy as [l1 [l2 ->]].
  assert (I := IH (l1 ++ l2) ND'). rewrite map_app, sumN_app in I. rewrite map_app, sumN_app. cbn [map sumN fold_right]. unfold sumN in *.
  assert (fold_right N.add 0 (map f r) <= fold_right N.add 0 (map g l1) + fold_right N.add 0 (map g l2)); [|lia].
  apply I. intros z Hz. destruct (H z (or_intror Hz)) as [w [Hw [Ew Hlw]]]. exists w. split; [|split; assumption].
  apply in_app_iff in Hw. apply in_app_iff. destruct Hw as [Hw|[Hw|Hw]]; [left; exact Hw| |right; exact Hw].
  subst w. exfalso. apply NI. rewrite E, <- Ew. apply in_map. exact Hz.
Qed.

Section Mono.
Variables (info info' : list taskinfo) (procs procs' : N) (irq : option nat).
Variable W : wf_info info.
Variable W' : wf_info info'.
Variable L : info_le info info'.
Variable HP : procs <= procs'.

Lemma remote_mono t t' : In t info -> task_le t t' -> remote_len info procs irq t <= remote_len info' procs' irq t'.
Proof.
  intros Ht TL. unfold remote_len. apply sumN_inj_le; [apply W; exact Ht|]. intros x Hx. destruct TL as [T1 [T2 [T3 [T4 [T5 T6]]]]]. destruct (T6 x Hx) as [y [Hy [Q1 [Q2 Q3]]]].
  exists y. split; [exact Hy|]. split; [exact Q1|]. rewrite Q1. apply np_fifo_mono; auto. repeat split; assumption.
Qed.

Lemma span_mono t t' : (forall q, In q (ti_requests t) -> 0 < q_num q) -> task_le t t' -> span_len info procs irq t <= span_len info' procs' irq t'.
Proof.
  intros HI TL. unfold span_len. apply maxN_map_le_ex. intros x Hx. assert (TL' := TL). destruct TL' as [T1 [T2 [T3 [T4 [T5 T6]]]]]. destruct (T6 x Hx) as [y [Hy [Q1 [Q2 Q3]]]].
  exists y. split; [exact Hy|]. unfold span1, iadd; cbn [i_len]. apply N.add_le_mono; [|exact Q3]. rewrite Q1.
  destruct (N.eqb_spec (q_num x) 1) as [E|E], (N.eqb_spec (q_num y) 1) as [E'|E']; cbn [negb].
  - apply np_fifo_mono; auto.
  - etransitivity; [apply np_fifo_irq|]. apply np_fifo_mono; auto. lia.
  - specialize (HI x Hx). lia.
  - apply np_fifo_mono; auto. lia.
Qed.

Lemma arrival_mono t t' : (forall u q, In u info -> In q (ti_requests u) -> 0 < q_num q) -> In t info -> task_le t t' -> arrival_len info procs irq t <= arrival_len info' procs' irq t'.
Proof.
  intros HI Ht [T1 [T2 [T3 _]]]. unfold arrival_len. apply maxN_map_le_ex. intros u Hu. apply filter_In in Hu. destruct Hu as [Hu C].
  destruct (L u Hu) as [u' [Hu' UL]]. exists u'. split; [|apply span_mono; [intros q Hq; apply (HI u q Hu Hq)|exact UL]].
  apply filter_In. split; [exact Hu'|]. destruct UL as [U1 [U2 [U3 _]]]. rewrite <- U1, <- U2, <- U3, <- T1, <- T2, <- T3. exact C.
Qed.
End Mono.

(** * k-exclusion: two-level selections *)
Definition value (w : N -> N) (l : list (rbound * N)) : N := sumN (map (fun p => snd p * w (rb_len (fst p))) l).

Lemma threshold (l : list (rbound * N)) : StronglySorted (fun a b => rb_len (fst b) <= rb_len (fst a)) l -> forall cap u, (forall p, In p l -> rb_len (fst p) <= u) ->
  exists th, th <= u /\ i_len (greedy (map (fun p => (0%nat, snd p, rb_len (fst p))) l) cap) = value (fun x => x - th) l + th * cap.
Proof.
  induction 1 as [|p r S IH F]; intros cap u Hu.
  - exists 0. split; [lia|]. cbn. lia.
  - cbn [map greedy]. unfold savail, slen; cbn [fst snd]. destruct (N.le_gt_cases cap (snd p)) as [Hc|Hc].
    + exists (rb_len (fst p)). split; [apply Hu; left; reflexivity|]. rewrite N.min_r by exact Hc. rewrite N.sub_diag, greedy_zero, iadd_0_r. cbn [i_len].
      unfold value; cbn [map sumN fold_right]. rewrite N.sub_diag, N.mul_0_r.
      assert (Z : sumN (map (fun q => snd q * (rb_len (fst q) - rb_len (fst p))) r) = 0).
      { clear - F. induction F as [|q l Fq F IH]; [reflexivity|]. cbn [map sumN fold_right]. unfold sumN in IH. rewrite IH. nia. }
      unfold sumN in Z. rewrite Z. lia.
    + rewrite N.min_l by lia. destruct (IH (cap - snd p) (rb_len (fst p))) as [th [T1 T2]]; [intros q Hq; rewrite Forall_forall in F; apply F; exact Hq|].
      exists th. split; [specialize (Hu p (or_introl eq_refl)); lia|]. unfold iadd; cbn [i_len]. rewrite T2. unfold value; cbn [map sumN fold_right]. unfold sumN. nia.
Qed.

Lemma value_perm w l l' : Permutation l l' -> value w l = value w l'.
Proof. unfold value. induction 1; cbn [map sumN fold_right]; unfold sumN in *; lia. Qed.

Lemma add_blocking_value w interval src ex cont : forall cap,
  value w (add_blocking interval src ex cont cap) = i_len (greedy (map (fun r => (tkey r, avail (fun t => Nat.eqb (ti_id t) ex) interval src r, w (rb_len r))) cont) cap).
Proof.
  induction cont as [|r l IH]; intros cap; cbn [add_blocking map greedy]; [reflexivity|].
  destruct (N.eqb_spec cap 0) as [->|NZ].
  - rewrite N.min_0_r. cbn [N.sub]. rewrite greedy_zero. reflexivity.
  - unfold savail, slen; cbn [fst snd]. destruct (Nat.eqb (ti_id (rb_task r)) ex) eqn:X; cbn [negb].
    + assert (EA : avail (fun t => Nat.eqb (ti_id t) ex) interval src r = 0) by (unfold avail; rewrite X; reflexivity).
      rewrite EA, IH, N.min_0_l, N.sub_0_r. unfold iadd; cbn [i_len]. lia.
    + assert (EA : avail (fun t => Nat.eqb (ti_id t) ex) interval src r = N.min (get_max_num_requests r interval) src) by (unfold avail; rewrite X; reflexivity).
      rewrite EA. unfold iadd; cbn [i_len]. unfold value in *. cbn [map sumN fold_right fst snd]. unfold sumN in IH. rewrite IH. reflexivity.
Qed.

Definition kx_contention (clusters : list (list rbound * (N * N))) (excluded : nat) (interval : N) : list (rbound * N) :=
  concat (map (fun p => add_blocking interval (snd (snd p)) excluded (fst p) (fst (snd p))) clusters).

Definition shorten (th : N) (sel : list (nat * N)) : list (nat * N) := map (fun p => (fst p, snd p - th)) sel.

Lemma shorten_total th sel : total_length sel <= total_length (shorten th sel) + th * N.of_nat (length sel).
Proof. induction sel as [|p r IH]; [cbn; lia|]. unfold shorten, total_length in *. cbn [map fold_right length snd]. nia. Qed.

Lemma value_app w a b : value w (a ++ b) = value w a + value w b.
Proof. unfold value. rewrite map_app. apply sumN_app. Qed.

Lemma selection_shorten_safe cont ex interval total src sel th : (forall r, In r cont -> 0 < ti_period (rb_task r)) -> sorted_by_length cont ->
  selection cont (fun t => Nat.eqb (ti_id t) ex) interval total src sel ->
  total_length (shorten th sel) <= value (fun x => x - th) (add_blocking interval src ex cont total).
Proof.
  intros Hp Hs [S1 S2 S3 S4]. rewrite add_blocking_value.
  set (E := fun t => Nat.eqb (ti_id t) ex).
  rewrite (greedy_keys _ (map (fun p => (fst p, avail E interval src (snd p), rb_len (snd p) - th)) (combine (seq 0 (length cont)) cont))).
  - assert (SP : forall p, In p (map (fun p => (fst p, avail E interval src (snd p), rb_len (snd p) - th)) (combine (seq 0 (length cont)) cont)) <-> exists k r, nth_error cont k = Some r /\ p = (k, avail E interval src r, rb_len r - th)).
    { intros p. pose proof (index_sources_spec E interval src cont 0) as IS. unfold index_sources in IS. split.
      - intros H. apply in_map_iff in H. destruct H as [[k r] [<- H]]. assert (I := proj1 (IS (k, avail E interval src r, rb_len r)) ltac:(apply in_map_iff; exists (k, r); auto)).
        destruct I as [j [r' [N1 N2]]]. cbn [plus] in N2.
        assert (Hk : nth_error cont k = Some r).
        { clear - H. assert (G : forall c s, In (k, r) (combine (seq s (length c)) c) -> (s <= k)%nat /\ nth_error c (k - s) = Some r).
          { induction c as [|x c IH]; intros s Hin; [destruct Hin|]. cbn in Hin. destruct Hin as [E|Hin].
            - injection E as -> ->. rewrite Nat.sub_diag. split; [lia|reflexivity].
            - destruct (IH _ Hin) as [L N]. split; [lia|]. replace (k - s)%nat with (S (k - S s)) by lia. exact N. }
          destruct (G cont 0%nat H) as [_ N]. rewrite Nat.sub_0_r in N. exact N. }
        exists k, r. cbn [fst snd]. auto.
      - intros [k [r [N1 ->]]]. apply in_map_iff. exists (k, r). split; [reflexivity|].
        assert (G : forall c s k, nth_error c k = Some r -> In ((s + k)%nat, r) (combine (seq s (length c)) c)).
        { clear. induction c as [|x c IH]; intros s k N; [destruct k; discriminate|]. destruct k as [|k]; cbn in N.
          - injection N as ->. rewrite Nat.add_0_r. left; reflexivity.
          - right. replace (s + S k)%nat with (S s + k)%nat by lia. apply IH. exact N. }
        apply (G cont 0%nat k N1). }
    assert (ND : NoDup (map skey (map (fun p => (fst p, avail E interval src (snd p), rb_len (snd p) - th)) (combine (seq 0 (length cont)) cont)))).
    { rewrite map_map. replace (map _ (combine (seq 0 (length cont)) cont)) with (seq 0 (length cont)); [apply seq_NoDup|].
      clear. generalize 0%nat. induction cont as [|x c IH]; intros s; [reflexivity|]. cbn [length seq combine map]. f_equal. apply IH. }
    assert (D : forall c s, sorted_by_length c -> decreasing (map (fun p => (fst p, avail E interval src (snd p), rb_len (snd p) - th)) (combine (seq s (length c)) c))).
    { clear. intros c s Hs. revert s. induction Hs as [|a l H IH FA]; intros s; cbn [length seq combine map]; constructor; [apply IH|].
      rewrite Forall_forall in *. intros p Hp. apply in_map_iff in Hp. destruct Hp as [[k r] [<- Hp]]. apply in_combine_r in Hp. specialize (FA r Hp). unfold slen; cbn [snd]. lia. }
    refine (proj1 (greedy_safe _ ND (D cont 0%nat Hs) total (shorten th sel) _ _ _)).
    + intros k l Hin. unfold shorten in Hin. apply in_map_iff in Hin. destruct Hin as [[k' l'] [X Hin]]. cbn [fst snd] in X. injection X as <- <-.
      destruct (S1 k' l' Hin) as [r [A [B C]]]. exists (k', avail E interval src r, rb_len r - th). split; [apply SP; exists k', r; auto|]. split; [reflexivity|]. unfold slen, rb_len; cbn [snd]. lia.
    + intros p Hp'. apply SP in Hp'. destruct Hp' as [k [r [A ->]]]. unfold skey, savail; cbn [fst snd].
      replace (occurrences k (shorten th sel)) with (occurrences k sel) by (unfold occurrences, shorten; rewrite filter_map, map_length; reflexivity).
      destruct (E (rb_task r)) eqn:Ex.
      * rewrite (occ_none k); [apply N.le_0_l|]. intros l Hl. destruct (S1 k l Hl) as [r' [A' [B' _]]]. rewrite A in A'. injection A' as <-. unfold E in Ex. congruence.
      * apply avail_fits; auto. apply Hp. eapply nth_error_In; exact A.
    + unfold shorten. rewrite map_length. exact S4.
  - rewrite !map_map. unfold savail, slen; cbn [fst snd]. clear. generalize 0%nat. induction cont as [|x c IH]; intros s; [reflexivity|]. cbn [length seq combine map]. f_equal. apply IH.
Qed.

Theorem kx_safe clusters ex interval cap sels :
  (forall p r, In p clusters -> In r (fst p) -> 0 < ti_period (rb_task r)) -> (forall p, In p clusters -> sorted_by_length (fst p)) ->
  kx_selection clusters ex interval cap sels ->
  total_length (concat sels) <= i_len (bb_limited (sort_limited (kx_contention clusters ex interval)) cap inter0).
Proof.
  intros Hp Hs [HF HC]. rewrite bb_limited_greedy, iadd_0_l.
  assert (SS : StronglySorted (fun a b : rbound * N => rb_len (fst b) <= rb_len (fst a)) (sort_limited (kx_contention clusters ex interval))) by apply (sort_len_sorted (fun p : rbound * N => rb_len (fst p))).
  assert (UB : exists u, forall p, In p (sort_limited (kx_contention clusters ex interval)) -> rb_len (fst p) <= u).
  { generalize (sort_limited (kx_contention clusters ex interval)). induction l as [|p r [u IH]]; [exists 0; intros p []|]. exists (N.max u (rb_len (fst p))). intros q [<-|Hq]; [lia|]. specialize (IH q Hq). lia. }
  destruct UB as [u Hu]. destruct (threshold _ SS cap u Hu) as [th [_ ->]].
  rewrite <- (value_perm _ _ _ (sort_len_perm (fun p : rbound * N => rb_len (fst p)) (kx_contention clusters ex interval))).
  assert (G : total_length (concat sels) <= value (fun x => x - th) (kx_contention clusters ex interval) + th * N.of_nat (length (concat sels))); [|nia].
  clear HC SS Hu. unfold kx_contention. induction HF as [|p sel cl sl H1 H2 IH]; [cbn; lia|].
  cbn [map concat]. rewrite total_length_app, value_app, app_length.
  assert (IH' := IH (fun p r A B => Hp p r (or_intror A) B) (fun p A => Hs p (or_intror A))).
  pose proof (selection_shorten_safe (fst p) ex interval (fst (snd p)) (snd (snd p)) sel th (fun r Hr => Hp p r (or_introl eq_refl) Hr) (Hs p (or_introl eq_refl)) H1) as S.
  pose proof (shorten_total th sel) as T. nia.
Qed.

(** * Soundness of the results *)
Open Scope Z_scope.

Lemma spin_none info procs irq rel comp res tr tsk k : wf_info info -> fifo_execution info procs irq rel comp res tr -> In tsk info ->
  (forall q, In q (ti_requests tsk) -> q_res q <> res) -> spin_time (ti_id tsk) k tr = 0.
Proof.
  intros W H Ht HN. unfold spin_time. assert (G : forall c, In c tr -> is_job (ti_id tsk) k c = false).
  { intros c Hc. unfold is_job. destruct (Nat.eqb_spec (cr_task c) (ti_id tsk)) as [E|E]; [|reflexivity]. exfalso.
    destruct (fe_spec _ _ _ _ _ _ _ H c Hc) as [t [q [N1 [N2 [N3 _]]]]]. rewrite E, (wf_id info tsk W Ht) in N1. injection N1 as <-. apply (HN q N2 N3). }
  clear H. induction tr as [|c r IH]; [reflexivity|]. cbn [fold_right]. rewrite (G c (or_introl eq_refl)). apply IH. intros x Hx. apply G. right. exact Hx.
Qed.

Lemma total_spin_safe info procs irq rel comp tr tsk k rs : wf_info info ->
  (forall t, In t info -> sporadic_jobs (ti_period t) (ti_response t) (rel (ti_id t)) (comp (ti_id t))) ->
  (forall r, fifo_execution info procs irq rel comp r (tr r)) -> In tsk info -> NoDup rs ->
  total_spin (ti_id tsk) k tr rs <= Z.of_N (remote_len info procs irq tsk).
Proof.
  intros W SJ H Ht ND. unfold total_spin, remote_len. fold (zsum (map (fun r => spin_time (ti_id tsk) k (tr r)) rs)).
  assert (NDq : NoDup (map q_res (ti_requests tsk))) by (apply W; exact Ht).
  assert (Hin : forall q, In q (ti_requests tsk) -> spin_time (ti_id tsk) k (tr (q_res q)) <= Z.of_N (i_len (np_fifo_per_resource tsk (cluster_contention info) procs (q_res q) (q_num q) irq))).
  { intros q Hq. apply (spin_resource_safe info procs irq rel comp (q_res q) (tr (q_res q)) tsk q k W SJ (H (q_res q)) Ht Hq eq_refl). }
  assert (Hout : forall r, ~ In r (map q_res (ti_requests tsk)) -> spin_time (ti_id tsk) k (tr r) = 0).
  { intros r Hr. apply (spin_none info procs irq rel comp r (tr r) tsk k W (H r) Ht). intros q Hq E. apply Hr. rewrite <- E. apply in_map. exact Hq. }
  clear H SJ. revert rs ND. induction (ti_requests tsk) as [|q l IH]; intros rs ND.
  - cbn [map sumN fold_right]. assert (G : zsum (map (fun r => spin_time (ti_id tsk) k (tr r)) rs) = 0); [|lia].
    clear ND. induction rs as [|r rs IH]; [reflexivity|]. cbn [map]. rewrite zsum_cons, IH, Hout by (intros []). reflexivity.
  - cbn [map sumN fold_right] in *. inversion NDq as [|a b NI NDq']; subst.
    assert (G : zsum (map (fun r => spin_time (ti_id tsk) k (tr r)) rs) <= Z.max 0 (spin_time (ti_id tsk) k (tr (q_res q))) + zsum (map (fun r => spin_time (ti_id tsk) k (if Nat.eqb r (q_res q) then [] else tr r)) rs)).
    { clear - ND. induction rs as [|r rs IH]; [cbn; lia|]. inversion ND as [|a b NI ND']; subst. cbn [map]. rewrite !zsum_cons. specialize (IH ND').
      destruct (Nat.eqb_spec r (q_res q)) as [->|E]; [|lia]. change (spin_time (ti_id tsk) k []) with 0.
      assert (X : zsum (map (fun r => spin_time (ti_id tsk) k (tr r)) rs) = zsum (map (fun r => spin_time (ti_id tsk) k (if Nat.eqb r (q_res q) then [] else tr r)) rs)); [|lia].
      clear IH ND ND'. induction rs as [|r rs IH]; [reflexivity|]. cbn [map]. rewrite !zsum_cons, IH by (intros Y; apply NI; right; exact Y).
      destruct (Nat.eqb_spec r (q_res q)) as [->|E]; [exfalso; apply NI; left; reflexivity|reflexivity]. }
    pose proof (Hin q (or_introl eq_refl)) as Hq.
    assert (R : zsum (map (fun r => spin_time (ti_id tsk) k (if Nat.eqb r (q_res q) then [] else tr r)) rs) <= Z.of_N (sumN (map (fun q0 => i_len (np_fifo_per_resource tsk (cluster_contention info) procs (q_res q0) (q_num q0) irq)) l))).
    { assert (B : forall r, In r (map q_res l) -> spin_time (ti_id tsk) k (tr r) <= Z.of_N (sumN (map (fun q0 => if Nat.eqb (q_res q0) r then i_len (np_fifo_per_resource tsk (cluster_contention info) procs (q_res q0) (q_num q0) irq) else 0%N) l))).
      { intros r Hr. apply in_map_iff in Hr. destruct Hr as [x [<- Hx]]. etransitivity; [apply Hin; right; exact Hx|]. apply N2Z.inj_le. clear - Hx. induction l as [|y l IH]; [destruct Hx|].
        cbn [map sumN fold_right]. destruct Hx as [->|Hx]; [rewrite Nat.eqb_refl; lia|]. specialize (IH Hx). unfold sumN in IH. lia. }
      clear - B Hout ND. 
      assert (C : forall rs, NoDup rs -> zsum (map (fun r => spin_time (ti_id tsk) k (if Nat.eqb r (q_res q) then [] else tr r)) rs) <= Z.of_N (sumN (map (fun q0 => if existsb (Nat.eqb (q_res q0)) rs then i_len (np_fifo_per_resource tsk (cluster_contention info) procs (q_res q0) (q_num q0) irq) else 0%N) l))).
      { clear ND rs. induction rs as [|r rs IH]; intros ND; [cbn; lia|]. inversion ND as [|a b NI ND']; subst. cbn [map]. rewrite zsum_cons. specialize (IH ND').
        assert (X : spin_time (ti_id tsk) k (if Nat.eqb r (q_res q) then [] else tr r) <= Z.of_N (sumN (map (fun q0 => if Nat.eqb (q_res q0) r then i_len (np_fifo_per_resource tsk (cluster_contention info) procs (q_res q0) (q_num q0) irq) else 0%N) l))).
        { destruct (Nat.eqb_spec r (q_res q)) as [->|E]; [cbn; lia|]. destruct (in_dec Nat.eq_dec r (map q_res l)) as [I|I]; [apply B; exact I|].
          rewrite Hout; [lia|]. intros [Y|Y]; [congruence|exact (I Y)]. }
        assert (Y : (sumN (map (fun q0 => if Nat.eqb (q_res q0) r then i_len (np_fifo_per_resource tsk (cluster_contention info) procs (q_res q0) (q_num q0) irq) else 0) l) +
                    sumN (map (fun q0 => if existsb (Nat.eqb (q_res q0)) rs then i_len (np_fifo_per_resource tsk (cluster_contention info) procs (q_res q0) (q_num q0) irq) else 0) l) <=
                    sumN (map (fun q0 => if existsb (Nat.eqb (q_res q0)) (r :: rs) then i_len (np_fifo_per_resource tsk (cluster_contention info) procs (q_res q0) (q_num q0) irq) else 0) l))%N).
        { clear - NI. induction l as [|y l IH]; [cbn; lia|]. cbn [map sumN fold_right existsb]. cbn [existsb] in IH. unfold sumN in IH.
          destruct (Nat.eqb_spec (q_res y) r) as [E|E]; cbn [orb].
          - replace (existsb (Nat.eqb (q_res y)) rs) with false; [lia|]. symmetry. apply not_true_is_false. intros Z. apply existsb_exists in Z. destruct Z as [z [Z1 Z2]]. apply Nat.eqb_eq in Z2. apply NI. congruence.
          - destruct (existsb (Nat.eqb (q_res y)) rs); lia. }
        lia. }
      etransitivity; [apply C; exact ND|]. apply N2Z.inj_le. clear. induction l as [|y l IH]; [cbn; lia|]. cbn [map sumN fold_right]. unfold sumN in IH. destruct (existsb (Nat.eqb (q_res y)) rs); lia. }
    rewrite N2Z.inj_add. unfold sumN in R. lia.
Qed.

Lemma maxN_in l x : In x l -> (x <= maxN l)%N.
Proof. induction l as [|y r IH]; intros H; [destruct H|]. cbn [maxN fold_right]. destruct H as [->|H]; [lia|]. specialize (IH H). unfold maxN in IH. lia. Qed.

Lemma span_safe info procs irq rel comp res tr tsk c : wf_info info ->
  (forall t, In t info -> sporadic_jobs (ti_period t) (ti_response t) (rel (ti_id t)) (comp (ti_id t))) ->
  fifo_execution info procs irq rel comp res tr -> In tsk info -> In c tr -> cr_task c = ti_id tsk ->
  cr_end c - cr_issue c <= Z.of_N (span_len info procs irq tsk).
Proof.
  intros W SJ H Ht Hc Et. destruct (fe_spec _ _ _ _ _ _ _ H c Hc) as [t [q [N1 [N2 [N3 N4]]]]]. rewrite Et, (wf_id info tsk W Ht) in N1. injection N1 as <-.
  apply in_split in Hc. destruct Hc as [pre [post ->]].
  pose proof (request_span_safe info procs irq rel comp res pre c post tsk W SJ H Ht Et) as S.
  assert (LE : (i_len (span1 info procs irq tsk q) <= span_len info procs irq tsk)%N) by (unfold span_len; apply maxN_in, (in_map (fun q => i_len (span1 info procs irq tsk q))); exact N2).
  unfold span1, iadd in LE. cbn [i_len] in LE. rewrite N3 in LE. pose proof (np_fifo_irq info tsk procs res 1 irq) as IR.
  destruct (N.eqb_spec (q_num q) 1) as [E|E]; cbn [negb] in LE; [rewrite E in LE|]; lia.
Qed.

Lemma arrival_safe info procs irq rel comp res tr tsk low c : wf_info info ->
  (forall t, In t info -> sporadic_jobs (ti_period t) (ti_response t) (rel (ti_id t)) (comp (ti_id t))) ->
  fifo_execution info procs irq rel comp res tr -> In tsk info -> In low info -> ti_id low <> ti_id tsk -> ti_cluster low = ti_cluster tsk -> (ti_prio tsk <= ti_prio low)%N ->
  In c tr -> cr_task c = ti_id low -> cr_end c - cr_issue c <= Z.of_N (arrival_len info procs irq tsk).
Proof.
  intros W SJ H Ht Hl NE Ec Pr Hc El. etransitivity; [apply (span_safe info procs irq rel comp res tr low c W SJ H Hl Hc El)|].
  apply N2Z.inj_le. unfold arrival_len. apply maxN_in. apply (in_map (fun t => span_len info procs irq t)). apply filter_In. split; [exact Hl|].
  destruct (Nat.eqb_spec (ti_id low) (ti_id tsk)); [contradiction|]. rewrite Ec, Nat.eqb_refl. cbn. apply N.leb_le. exact Pr.
Qed.

(** * The k-exclusion contention set of the code *)
Lemma kx_contention_eq clusters limits res interval ex :
  contention_from_all_clusters clusters limits res interval ex = kx_contention (map (fun p => (nth res (fst p) [], snd p)) (combine clusters limits)) ex interval.
Proof.
  unfold contention_from_all_clusters, kx_contention. rewrite map_map. f_equal. apply map_ext. intros [resources [total src]]. cbn [fst snd].
  destruct (Nat.ltb_spec res (length resources)) as [L|L]; [reflexivity|]. rewrite nth_overflow by exact L. reflexivity.
Qed.

(** * Local resources *)
Lemma access_invariant l : forall acc locals done,
  (forall r c, In (r, c) acc -> exists b, In b done /\ rb_res b = r /\ ti_cluster (rb_task b) = c) ->
  (forall b, In b done -> exists c, find (fun p => Nat.eqb (fst p) (rb_res b)) acc = Some (rb_res b, c)) ->
  (forall r, In r locals <-> exists c, find (fun p => Nat.eqb (fst p) r) acc = Some (r, c) /\ forall b, In b done -> rb_res b = r -> ti_cluster (rb_task b) = c) ->
  forall r, In r (snd (fold_left access_step l (acc, locals))) <-> (exists b, In b (done ++ l) /\ rb_res b = r) /\ forall b b', In b (done ++ l) -> In b' (done ++ l) -> rb_res b = r -> rb_res b' = r -> ti_cluster (rb_task b) = ti_cluster (rb_task b').
Proof.
  induction l as [|x l IH]; intros acc locals dn H1 H2 H3 r.
  - cbn [fold_left snd]. rewrite app_nil_r, H3. split.
    + intros [c [F A]]. split.
      * apply find_some in F. destruct F as [F _]. destruct (H1 _ _ F) as [b [B1 [B2 _]]]. exists b. auto.
      * intros b b' B B' E E'. rewrite (A b B E), (A b' B' E'). reflexivity.
    + intros [[b [B E]] A]. destruct (H2 b B) as [c F]. rewrite E in F. exists c. split; [exact F|]. intros b' B' E'.
      apply find_some in F. destruct F as [F _]. destruct (H1 _ _ F) as [b0 [B0 [E0 C0]]]. rewrite <- C0. apply A; auto.
  - cbn [fold_left]. replace (dn ++ x :: l) with ((dn ++ [x]) ++ l) by (rewrite <- app_assoc; reflexivity).
    unfold access_step at 2. cbv beta iota. destruct (find (fun p => Nat.eqb (fst p) (rb_res x)) acc) as [p|] eqn:F.
    + pose proof (find_some _ _ F) as [Fi Fe]. apply Nat.eqb_eq in Fe. destruct p as [pr pc]. cbn [fst snd] in *. subst pr.
      destruct (Nat.eqb_spec pc (ti_cluster (rb_task x))) as [E|E]; cbn [negb]; apply IH.
      * intros r' c' I. destruct (H1 r' c' I) as [b [B1 B2]]. exists b. split; [apply in_app_iff; left; exact B1|exact B2].
      * intros b B. apply in_app_iff in B. destruct B as [B|[<-|[]]]; [apply H2; exact B|exists pc; exact F].
      * intros r'. rewrite H3. split; intros [c [G A]]; exists c; (split; [exact G|]); intros b B Eb.
        -- apply in_app_iff in B. destruct B as [B|[<-|[]]]; [apply A; assumption|]. rewrite <- Eb, F in G. injection G as <-. symmetry; exact E.
        -- apply A; [apply in_app_iff; left; exact B|exact Eb].
      * intros r' c' I. destruct (H1 r' c' I) as [b [B1 B2]]. exists b. split; [apply in_app_iff; left; exact B1|exact B2].
      * intros b B. apply in_app_iff in B. destruct B as [B|[<-|[]]]; [apply H2; exact B|exists pc; exact F].
      * intros r'. rewrite filter_In, H3. split.
        -- intros [[c [G A]] N]. exists c. split; [exact G|]. intros b B Eb. apply in_app_iff in B. destruct B as [B|[<-|[]]]; [apply A; assumption|].
           rewrite Eb, Nat.eqb_refl in N. discriminate.
        -- intros [c [G A]]. split.
           ++ exists c. split; [exact G|]. intros b B Eb. apply A; [apply in_app_iff; left; exact B|exact Eb].
           ++ destruct (Nat.eqb_spec r' (rb_res x)) as [->|N]; [|reflexivity]. exfalso. rewrite F in G. injection G as <-. apply E. symmetry. apply A; [apply in_app_iff; right; left; reflexivity|reflexivity].
    + apply IH.
      * intros r' c' [I|I]; [injection I as <- <-; exists x; split; [apply in_app_iff; right; left; reflexivity|auto]|].
        destruct (H1 r' c' I) as [b [B1 B2]]. exists b. split; [apply in_app_iff; left; exact B1|exact B2].
      * intros b B. cbn [find fst]. destruct (Nat.eqb_spec (rb_res x) (rb_res b)) as [E|E]; [exists (ti_cluster (rb_task x)); rewrite E; reflexivity|].
        apply in_app_iff in B. destruct B as [B|[<-|[]]]; [apply H2; exact B|congruence].
      * intros r'. cbn [find fst In]. rewrite H3. destruct (Nat.eqb_spec (rb_res x) r') as [E|E].
        -- subst r'. split; [|intros _; left; reflexivity]. intros _. exists (ti_cluster (rb_task x)). split; [reflexivity|]. intros b B Eb.
           apply in_app_iff in B. destruct B as [B|[<-|[]]]; [|reflexivity]. destruct (H2 b B) as [c G]. rewrite Eb, F in G. discriminate.
        -- split.
           ++ intros [X|[c [G A]]]; [congruence|]. exists c. split; [exact G|]. intros b B Eb. apply in_app_iff in B. destruct B as [B|[<-|[]]]; [apply A; assumption|congruence].
           ++ intros [c [G A]]. right. exists c. split; [exact G|]. intros b B Eb. apply A; [apply in_app_iff; left; exact B|exact Eb].
Qed.

Lemma local_resources_spec info r : In r (get_local_resources info) <->
  (exists t q, In t info /\ In q (ti_requests t) /\ q_res q = r) /\
  forall t q t' q', In t info -> In q (ti_requests t) -> q_res q = r -> In t' info -> In q' (ti_requests t') -> q_res q' = r -> ti_cluster t = ti_cluster t'.
Proof.
  unfold get_local_resources. rewrite (access_invariant (all_requests info) [] [] []).
  - cbn [app]. split.
    + intros [[b [B E]] A]. apply in_all_requests in B. destruct B as [t [q [T [Q ->]]]]. split; [exists t, q; auto|].
      intros t1 q1 t2 q2 T1 Q1 E1 T2 Q2 E2. apply (A (RB t1 q1) (RB t2 q2)); try assumption; apply in_all_requests; [exists t1, q1; auto|exists t2, q2; auto].
    + intros [[t [q [T [Q E]]]] A]. split; [exists (RB t q); split; [apply in_all_requests; exists t, q; auto|exact E]|].
      intros b b' B B' E1 E2. apply in_all_requests in B, B'. destruct B as [t1 [q1 [T1 [Q1 ->]]]]. destruct B' as [t2 [q2 [T2 [Q2 ->]]]]. apply (A t1 q1 t2 q2 T1 Q1 E1 T2 Q2 E2).
  - intros r' c [].
  - intros b [].
  - intros r'. split; [intros []|intros [c [X _]]; discriminate].
Qed.

(** * Ceiling blocking *)
Open Scope N_scope.

Lemma ceiling_spec cs c : ceiling cs <= c <-> UNLIMITED <= c \/ exists r, In r cs /\ ti_prio (rb_task r) <= c.
Proof.
  unfold ceiling. generalize UNLIMITED. induction cs as [|r cs IH]; intros u; cbn [fold_left].
  - split; [intros H; left; exact H|intros [H|[r [[] _]]]; exact H].
  - rewrite IH. split.
    + intros [H|[x [Hx Hp]]]; [|right; exists x; split; [right; exact Hx|exact Hp]].
      destruct (N.le_gt_cases u c); [left; assumption|right]. exists r. split; [left; reflexivity|lia].
    + intros [H|[x [[<-|Hx] Hp]]]; [left; lia|left; lia|right; exists x; auto].
Qed.

Lemma ceilings_nth info q : nth q (get_priority_ceilings info) UNLIMITED = ceiling (for_resource q (all_requests info)).
Proof.
  unfold get_priority_ceilings. change UNLIMITED with (ceiling []) at 1. rewrite map_nth, split_by_resource_nth. reflexivity.
Qed.

Lemma pcp_spec info tsk : ti_prio tsk < UNLIMITED ->
  (forall low q, can_block info tsk low q -> q_len q <= i_len (pcp_blocking_of info tsk)) /\
  (i_len (pcp_blocking_of info tsk) = 0 \/ exists low q, can_block info tsk low q /\ i_len (pcp_blocking_of info tsk) = q_len q).
Proof.
  intros HU. unfold pcp_blocking_of. cbv zeta. rewrite split_by_cluster_nth.
  assert (TEST : forall q, (nth (q_res q) (get_priority_ceilings info) UNLIMITED <=? ti_prio tsk) = true <-> exists u x, In u info /\ In x (ti_requests u) /\ q_res x = q_res q /\ ti_prio u <= ti_prio tsk).
  { intros q. rewrite N.leb_le, ceilings_nth, ceiling_spec. split.
    - intros [H|[r [Hr Hp]]]; [lia|]. apply filter_In in Hr. destruct Hr as [Hr E]. apply Nat.eqb_eq in E. apply in_all_requests in Hr. destruct Hr as [u [x [U [X ->]]]]. exists u, x. auto.
    - intros [u [x [U [X [E P]]]]]. right. exists (RB u x). split; [|exact P]. apply filter_In. split; [apply in_all_requests; exists u, x; auto|apply Nat.eqb_eq; exact E]. }
  set (T := fun q => nth (q_res q) (get_priority_ceilings info) UNLIMITED <=? ti_prio tsk) in *.
  set (step := fun b other => if negb (Nat.eqb (ti_id tsk) (ti_id other)) && (ti_prio tsk <=? ti_prio other) then fold_left (fun b q => if T q then imax b (Inter 1 (q_len q)) else b) (ti_requests other) b else b).
  assert (IN : forall l b, i_len (fold_left (fun b q => if T q then imax b (Inter 1 (q_len q)) else b) l b) = N.max (i_len b) (maxN (map q_len (filter T l)))).
  { induction l as [|q l IH]; intros b; cbn [fold_left filter map]; [cbn; lia|]. rewrite IH. destruct (T q); [|reflexivity]. rewrite imax_len. cbn [map maxN fold_right i_len]. unfold maxN. lia. }
  assert (OUT : forall l b, i_len (fold_left step l b) = N.max (i_len b) (maxN (map (fun o => if negb (Nat.eqb (ti_id tsk) (ti_id o)) && (ti_prio tsk <=? ti_prio o) then maxN (map q_len (filter T (ti_requests o))) else 0) l))).
  { induction l as [|o l IH]; intros b; cbn [fold_left map]; [cbn; lia|]. rewrite IH. unfold step at 1. destruct (negb _ && _); [rewrite IN|]; cbn [maxN fold_right]; unfold maxN; lia. }
  change (fun (b : interf) (other : taskinfo) => if negb (Nat.eqb (ti_id tsk) (ti_id other)) && (ti_prio tsk <=? ti_prio other) then fold_left (fun b q => if nth (q_res q) (get_priority_ceilings info) UNLIMITED <=? ti_prio tsk then imax b (Inter 1 (q_len q)) else b) (ti_requests other) b else b) with step.
  rewrite OUT. change (i_len inter0) with 0. rewrite N.max_0_l.
  assert (ATT : forall l, maxN l = 0 \/ In (maxN l) l).
  { induction l as [|x l IH]; [left; reflexivity|]. cbn [maxN fold_right]. fold (maxN l). destruct (N.max_spec x (maxN l)) as [[_ ->]|[_ ->]]; [|right; left; reflexivity]. destruct IH as [IH|IH]; [left; exact IH|right; right; exact IH]. }
  split.
  - intros low q [L1 [L2 [L3 [L4 [L5 L6]]]]]. etransitivity; [|apply maxN_in; apply in_map; apply filter_In; split; [exact L1|apply Nat.eqb_eq; exact L3]].
    destruct (Nat.eqb_spec (ti_id tsk) (ti_id low)) as [E|E]; [congruence|]. cbn [negb andb]. rewrite (proj2 (N.leb_le _ _) L4). apply maxN_in, in_map, filter_In. split; [exact L5|apply TEST; exact L6].
  - destruct (ATT (map (fun o => if negb (Nat.eqb (ti_id tsk) (ti_id o)) && (ti_prio tsk <=? ti_prio o) then maxN (map q_len (filter T (ti_requests o))) else 0) (in_cluster (ti_cluster tsk) info))) as [Z|I]; [left; exact Z|].
    apply in_map_iff in I. destruct I as [o [E I]]. rewrite <- E. apply filter_In in I. destruct I as [I C]. apply Nat.eqb_eq in C.
    destruct (Nat.eqb_spec (ti_id tsk) (ti_id o)) as [X|X]; cbn [negb andb]; [left; reflexivity|]. destruct (N.leb_spec (ti_prio tsk) (ti_prio o)) as [P|P]; [|left; reflexivity].
    destruct (ATT (map q_len (filter T (ti_requests o)))) as [Z|J]; [left; exact Z|]. apply in_map_iff in J. destruct J as [q [Eq J]]. apply filter_In in J. destruct J as [J1 J2].
    right. exists o, q. split; [|symmetry; exact Eq]. apply TEST in J2. unfold can_block. repeat split; auto.
Qed.

(** * The MSRP *)
Lemma msrp_result info irq i tsk : nth_error info i = Some tsk ->
  let locals := get_local_resources info in
  let ginfo := extract_resources info locals false in let linfo := extract_resources info locals true in
  exists b gt lt, nth_error (msrp_bounds_holistic info irq) i = Some b /\ nth_error ginfo i = Some gt /\ nth_error linfo i = Some lt /\
  i_len (bb_remote b) = remote_len ginfo 1 irq gt /\
  i_len (bb_arrival b) = N.max (arrival_len ginfo 1 irq gt) (i_len (pcp_blocking_of linfo lt)) /\
  i_len (bb_block b) = remote_len ginfo 1 irq gt + N.max (arrival_len ginfo 1 irq gt) (i_len (pcp_blocking_of linfo lt)).
Proof.
  intros H locals ginfo linfo. unfold msrp_bounds_holistic. fold locals. cbv zeta. fold ginfo. fold linfo.
  assert (HG : exists gt, nth_error ginfo i = Some gt) by (eexists; unfold ginfo, extract_resources; erewrite map_nth_error by exact H; reflexivity).
  assert (HL : exists lt, nth_error linfo i = Some lt) by (eexists; unfold linfo, extract_resources; erewrite map_nth_error by exact H; reflexivity).
  destruct HG as [gt HG], HL as [lt HL]. destruct (omlp_result ginfo 1 irq i gt HG) as [b [B1 [B2 [B3 [B4 B5]]]]].
  assert (HC : nth_error (combine linfo (task_fair_mutex_bounds ginfo 1 irq)) i = Some (lt, b)).
  { revert HL B1. unfold task_fair_mutex_bounds. generalize (clustered_omlp_bounds ginfo 1 irq). generalize linfo. clear. intros l m. revert l m. induction i as [|i IH]; intros [|x l] [|y m]; cbn; try discriminate.
    - intros E1 E2. congruence.
    - apply IH. }
  erewrite map_nth_error by exact HC. eexists. exists gt, lt. split; [reflexivity|]. split; [exact HG|]. split; [exact HL|]. cbv beta iota.
  rewrite B4. destruct (N.ltb_spec (arrival_len ginfo 1 irq gt) (i_len (pcp_blocking_of linfo lt))) as [LT|LE]; cbn [bb_remote bb_arrival bb_block i_len].
  - rewrite B2, B5. repeat split; lia.
  - rewrite B2, B4, B5. repeat split; lia.
Qed.
