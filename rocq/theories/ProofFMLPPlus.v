(** Safety of the bounds for the partitioned FMLP+. *)
From Coq Require Import NArith ZArith List Bool Sorted Permutation Lia Arith.
From Verif Require Import ModelLocking ModelFMLPPlus SpecLocking SpecQueue SpecDPCP SpecFMLPPlus ProofLocking ProofSpin ProofSpinCount ProofQueue ProofBlame.
Import ListNotations.
Open Scope N_scope.

(** * Sums and counts *)
Lemma nsumN_filter_le {A} (f : A -> N) p l : nsumN f (filter p l) <= nsumN f l.
Proof. induction l as [|x r IH]; [cbn; lia|]. cbn [filter]. change (nsumN f (x :: r)) with (f x + nsumN f r). destruct (p x); [change (nsumN f (x :: filter p r)) with (f x + nsumN f (filter p r))|]; lia. Qed.

Lemma all_requests_filter P l : all_requests (filter P l) = filter (fun rb => P (rb_task rb)) (all_requests l).
Proof.
  unfold all_requests. induction l as [|t r IH]; [reflexivity|]. cbn [filter map concat]. rewrite filter_app, <- IH.
  assert (G : forall qs, filter (fun rb => P (rb_task rb)) (map (RB t) qs) = if P t then map (RB t) qs else []).
  { induction qs as [|q qs IHq]; cbn [map filter rb_task]; [destruct (P t); reflexivity|]. rewrite IHq. destruct (P t); reflexivity. }
  rewrite G. destruct (P t); reflexivity.
Qed.

Lemma greedy_count src : forall cap, i_count (greedy src cap) = N.min cap (nsumN savail src).
Proof.
  induction src as [|p r IH]; intros cap; [cbn; lia|]. cbn [greedy iadd i_count]. rewrite IH. change (nsumN savail (p :: r)) with (savail p + nsumN savail r). lia.
Qed.

Lemma fold_iadd_len {A} (f : A -> interf) l : forall b, i_len (fold_left (fun s a => iadd s (f a)) l b) = i_len b + nsumN (fun a => i_len (f a)) l.
Proof. induction l as [|x r IH]; intros b; [cbn; lia|]. cbn [fold_left]. rewrite IH. change (nsumN (fun a => i_len (f a)) (x :: r)) with (i_len (f x) + nsumN (fun a => i_len (f a)) r). cbn [iadd i_len]. lia. Qed.

Lemma fold_iadd_count {A} (f : A -> interf) l : forall b, i_count (fold_left (fun s a => iadd s (f a)) l b) = i_count b + nsumN (fun a => i_count (f a)) l.
Proof. induction l as [|x r IH]; intros b; [cbn; lia|]. cbn [fold_left]. rewrite IH. change (nsumN (fun a => i_count (f a)) (x :: r)) with (i_count (f x) + nsumN (fun a => i_count (f a)) r). cbn [iadd i_count]. lia. Qed.

Lemma fold_num_sum {A} (f : A -> N) (p : A -> bool) l : forall c, fold_left (fun c a => if p a then c + f a else c) l c = c + nsumN f (filter p l).
Proof. induction l as [|x r IH]; intros c; [cbn; lia|]. cbn [fold_left filter]. rewrite IH. destruct (p x); [change (nsumN f (x :: filter p r)) with (f x + nsumN f (filter p r))|]; lia. Qed.

Lemma add_at_nth n a v k : nth k (add_at n a v) 0 = nth k v 0 + (if Nat.eqb n k then a else 0).
Proof.
  revert v k. induction n as [|n IH]; intros [|x v] [|k]; cbn [add_at nth Nat.eqb]; try lia.
  - destruct k; reflexivity.
  - rewrite IH. destruct k; cbn [nth]; lia.
  - apply IH.
Qed.

Lemma access_counts_nth cs k : nth k (derive_access_counts cs) 0 = nsumN (fun rb => q_num (rb_req rb)) (for_resource k cs).
Proof.
  unfold derive_access_counts. assert (G : forall v, nth k (fold_left (fun counts req => add_at (rb_res req) (q_num (rb_req req)) counts) cs v) 0 = nth k v 0 + nsumN (fun rb => q_num (rb_req rb)) (for_resource k cs)).
  { unfold for_resource. induction cs as [|rb r IH]; intros v; [cbn; lia|]. cbn [fold_left filter]. rewrite IH, add_at_nth. destruct (Nat.eqb (rb_res rb) k).
    - change (nsumN (fun rb => q_num (rb_req rb)) (rb :: filter (fun r0 => Nat.eqb (rb_res r0) k) r)) with (q_num (rb_req rb) + nsumN (fun rb => q_num (rb_req rb)) (filter (fun r0 => Nat.eqb (rb_res r0) k) r)). lia.
    - lia. }
  rewrite G. destruct k; reflexivity.
Qed.

Lemma accessed ac k : Nat.ltb k (length ac) && (0 <? nth k ac 0) = (0 <? nth k ac 0).
Proof. destruct (Nat.ltb_spec k (length ac)) as [H|H]; [reflexivity|]. rewrite nth_overflow by exact H. reflexivity. Qed.

(** * bound_blocking *)
Definition excl (i : nat) (prio : N) (t : taskinfo) : bool := Nat.eqb (ti_id t) i || (ti_prio t <? prio).

Lemma bound_blocking_greedy cont interval cap src i prio : bound_blocking cont interval cap src i prio =
  greedy (map (fun rb => (0%nat, avail (excl i prio) interval src rb, rb_len rb)) cont) cap.
Proof.
  unfold bound_blocking. rewrite (bb_loop_greedy (fun _ => 0%nat)), iadd_0_l. apply greedy_keys. unfold sources. rewrite !map_map. apply map_ext. intros rb. reflexivity.
Qed.

Lemma bound_blocking_len cont interval cap src i prio (n : rbound -> N) :
  StronglySorted (fun a b => rb_len b <= rb_len a) cont -> (forall rb, In rb cont -> n rb <= avail (excl i prio) interval src rb) -> nsumN n cont <= cap ->
  nsumN (fun rb => n rb * rb_len rb) cont <= i_len (bound_blocking cont interval cap src i prio).
Proof. intros S H C. rewrite bound_blocking_greedy. exact (proj1 (greedy_fun _ rb_len n cont S H cap C)). Qed.

Lemma bound_blocking_count cont interval cap src i prio (n : rbound -> N) :
  (forall rb, In rb cont -> n rb <= avail (excl i prio) interval src rb) -> nsumN n cont <= cap ->
  nsumN n cont <= i_count (bound_blocking cont interval cap src i prio).
Proof.
  intros H C. rewrite bound_blocking_greedy, greedy_count, nsumN_map. apply N.min_glb; [exact C|]. apply nsumN_le. exact H.
Qed.

(** * Executions *)
Section Exec.
Context (info : list taskinfo) (np : bool) (rel comp : nat -> nat -> Z) (sched : nat -> Z -> option (nat * nat)) (stamp : nat -> creq -> Z) (tr : nat -> list creq).
Hypothesis W : wf_info info.
Hypothesis SJ : forall t, In t info -> sporadic_jobs (ti_period t) (ti_response t) (rel (ti_id t)) (comp (ti_id t)).
Hypothesis EX : fmlpp_execution info np rel comp sched stamp tr.
Context (tsk : taskinfo) (k : nat).
Hypothesis Htsk : In tsk info.
Hypothesis FIT : numbers_fit info tsk.
Let i := ti_id tsk.
Let exec := runs info sched.
Let LR := fx_requests _ _ _ _ _ _ _ EX.

Lemma runs_spec r c t : exec r c t = true <-> (cr_start c <= t < cr_end c)%Z /\ sched (tcpu info (cr_task c)) t = Some (cr_task c, cr_job c).
Proof.
  unfold exec, runs. rewrite !andb_true_iff, Z.leb_le, Z.ltb_lt. destruct (sched (tcpu info (cr_task c)) t) as [[j l]|]; [|split; [intros [_ H]; discriminate|intros [_ H]; discriminate]].
  rewrite andb_true_iff, !Nat.eqb_eq. split; [intros [H [-> ->]]; auto|intros [H E]; injection E as -> ->; auto].
Qed.

Lemma runs_times r a t : In a (tr r) -> exec r a t = true -> (cr_start a <= t < cr_end a)%Z.
Proof. intros _ H. apply runs_spec in H. apply H. Qed.

(** the requests of a task do not overlap *)
Lemma outstanding_unique r s a b t : In a (tr r) -> In b (tr s) -> cr_task a = cr_task b -> (cr_issue a <= t < cr_end a)%Z -> (cr_issue b <= t < cr_end b)%Z -> (r, a) = (s, b).
Proof.
  intros A B E TA TB. assert (DEC : {(r, a) = (s, b)} + {(r, a) <> (s, b)}) by (repeat decide equality). destruct DEC as [D|NE]; [exact D|exfalso].
  destruct (fx_sequential _ _ _ _ _ _ _ EX r s a b A B NE E) as [H|H]; lia.
Qed.

(** a processor executes one request at a time *)
Lemma runs_unique r s a b t : In a (tr r) -> In b (tr s) -> tcpu info (cr_task a) = tcpu info (cr_task b) -> exec r a t = true -> exec s b t = true -> (r, a) = (s, b).
Proof.
  intros A B E HA HB. apply runs_spec in HA, HB. destruct HA as [TA SA], HB as [TB SB]. rewrite E, SB in SA. injection SA as SA1 SA2.
  pose proof (lr_times _ _ _ _ _ _ (LR r) a A). pose proof (lr_times _ _ _ _ _ _ (LR s) b B). apply (outstanding_unique r s a b t A B); [congruence|lia|lia].
Qed.

Lemma task_of r a : In a (tr r) -> exists u, nth_error info (cr_task a) = Some u /\ In u info /\ ti_id u = cr_task a /\ tcpu info (cr_task a) = ti_cluster u.
Proof. intros Ha. destruct (source info rel comp exec tr W LR r a Ha) as [rb [H1 [H2 [_ H4]]]]. apply in_all_requests in H1. exists (rb_task rb). unfold tcpu. rewrite H4. tauto. Qed.

Lemma tcpu_i : tcpu info i = ti_cluster tsk.
Proof. unfold tcpu, i. rewrite (info_nth info W tsk Htsk). reflexivity. Qed.

(** ** The requests of the job *)
Definition own : list (nat * creq) := concat (map (fun q => map (pair (q_res q)) (filter (is_job i k) (tr (q_res q)))) (ti_requests tsk)).

Lemma in_own r b : In (r, b) own <-> In b (tr r) /\ cr_task b = i /\ cr_job b = k.
Proof.
  unfold own. rewrite in_concat. split.
  - intros [l [H1 H2]]. apply in_map_iff in H1. destruct H1 as [q [<- Hq]]. apply in_map_iff in H2. destruct H2 as [b' [E Hb]]. injection E as <- <-. apply filter_In in Hb.
    destruct Hb as [B1 B2]. unfold is_job in B2. apply andb_true_iff in B2. rewrite !Nat.eqb_eq in B2. tauto.
  - intros [H1 [H2 H3]]. destruct (source info rel comp exec tr W LR r b H1) as [rb [R1 [R2 [R3 R4]]]]. apply in_all_requests in R1. destruct R1 as [R1 R5].
    assert (E : rb_task rb = tsk) by (apply (info_inj info W); [exact R1|exact Htsk|unfold i in H2; congruence]). exists (map (pair r) (filter (is_job i k) (tr r))). split.
    + apply in_map_iff. exists (rb_req rb). unfold rb_res in R3. rewrite R3. split; [reflexivity|]. rewrite <- E. exact R5.
    + apply in_map. apply filter_In. split; [exact H1|]. unfold is_job. rewrite H2, H3, !Nat.eqb_refl. reflexivity.
Qed.

Lemma own_nodup : NoDup own.
Proof.
  unfold own. apply (nodup_concat fst q_res).
  - destruct W as [_ W2]. apply (W2 tsk Htsk).
  - intros q _. apply FinFun.Injective_map_NoDup; [intros x y E; congruence|]. apply NoDup_filter. apply (fx_distinct _ _ _ _ _ _ _ EX).
  - intros q p _ Hp. apply in_map_iff in Hp. destruct Hp as [b [<- _]]. reflexivity.
Qed.

Lemma own_number (p : nat -> bool) : N.of_nat (length (filter (fun rb => p (fst rb)) own)) <= nsumN q_num (filter (fun q => p (q_res q)) (ti_requests tsk)).
Proof.
  unfold own. assert (Q : forall q, In q (ti_requests tsk) -> In q (ti_requests tsk)) by auto. revert Q. generalize (ti_requests tsk) at 1 3 4. intros qs.
  induction qs as [|q r IH]; intros Q; [cbn; lia|]. cbn [map concat filter]. rewrite filter_app, app_length.
  specialize (IH (fun x Hx => Q x (or_intror Hx))).
  assert (B := lr_number _ _ _ _ _ _ (LR (q_res q)) i k tsk q (info_nth info W tsk Htsk) (Q q (or_introl eq_refl)) eq_refl).
  assert (G : forall l, length (filter (fun rb : nat * creq => p (fst rb)) (map (pair (q_res q)) l)) = if p (q_res q) then length l else 0%nat).
  { induction l as [|x l IHl]; cbn [map filter fst]; [destruct (p (q_res q)); reflexivity|]. destruct (p (q_res q)) eqn:P; cbn [length]; rewrite IHl; reflexivity. }
  rewrite G. destruct (p (q_res q)); [|lia]. change (nsumN q_num (q :: filter (fun q0 => p (q_res q0)) r)) with (q_num q + nsumN q_num (filter (fun q0 => p (q_res q0)) r)). lia.
Qed.

Lemma own_times r b : In (r, b) own -> (rel i k <= cr_issue b /\ cr_issue b <= cr_start b /\ cr_start b <= cr_end b /\ cr_end b <= comp i k)%Z.
Proof.
  intros H. apply in_own in H. destruct H as [B [T K]]. pose proof (lr_times _ _ _ _ _ _ (LR r) b B). destruct (lr_job _ _ _ _ _ _ (LR r) b B) as [J1 J2]. rewrite T, K in J1, J2. lia.
Qed.

Lemma own_order r s b c : In (r, b) own -> In (s, c) own -> (r, b) = (s, c) \/ (cr_end b <= cr_issue c)%Z \/ (cr_end c <= cr_issue b)%Z.
Proof.
  intros H1 H2. apply in_own in H1, H2. assert (DEC : {(r, b) = (s, c)} + {(r, b) <> (s, c)}) by (repeat decide equality). destruct DEC as [D|NE]; [left; exact D|right].
  destruct H1 as [B [T _]], H2 as [B' [T' _]]. exact (fx_sequential _ _ _ _ _ _ _ EX r s b c B B' NE ltac:(congruence)).
Qed.

(** ** Direct blockers *)
Definition blocks (r : nat) (a b : creq) : bool := (stamp r a <? stamp r b)%Z && (cr_issue b <? cr_end a)%Z.
Definition blocker (r : nat) (a : creq) : bool := existsb (blocks r a) (filter (is_job i k) (tr r)).
Definition direct (p : nat) : list (nat * creq) :=
  concat (map (fun q => map (pair (q_res q)) (filter (fun a => Nat.eqb (tcpu info (cr_task a)) p && blocker (q_res q) a) (tr (q_res q)))) (ti_requests tsk)).

Lemma mine_own r b : In b (filter (is_job i k) (tr r)) <-> In (r, b) own.
Proof. rewrite in_own, filter_In. unfold is_job. rewrite andb_true_iff, !Nat.eqb_eq. tauto. Qed.

Lemma blocks_facts r a b : In a (tr r) -> In (r, b) own -> blocks r a b = true -> (stamp r a < stamp r b /\ cr_issue a <= cr_issue b < cr_end a /\ cr_end a <= cr_start b)%Z /\ cr_task a <> i.
Proof.
  intros A B H. unfold blocks in H. rewrite andb_true_iff, !Z.ltb_lt in H. destruct H as [H1 H2]. pose proof (own_times r b B) as TB. apply in_own in B. destruct B as [B [T K]].
  assert (I := fx_stamp _ _ _ _ _ _ _ EX r r a b A B H1). assert (NE : a <> b) by (intros ->; lia).
  destruct (fx_fifo _ _ _ _ _ _ _ EX r a b A B NE) as [[_ F]|[F _]]; [|lia]. split; [lia|]. intros E.
  pose proof (lr_times _ _ _ _ _ _ (LR r) a A). destruct (fx_sequential _ _ _ _ _ _ _ EX r r a b A B ltac:(congruence) ltac:(congruence)) as [X|X]; lia.
Qed.

Lemma in_direct p r h : In (r, h) (direct p) <-> In h (tr r) /\ tcpu info (cr_task h) = p /\ exists b, In (r, b) own /\ blocks r h b = true.
Proof.
  unfold direct. rewrite in_concat. split.
  - intros [l [H1 H2]]. apply in_map_iff in H1. destruct H1 as [q [<- Hq]]. apply in_map_iff in H2. destruct H2 as [b' [E Hb]]. injection E as <- <-. apply filter_In in Hb. destruct Hb as [B1 B2].
    apply andb_true_iff in B2. rewrite Nat.eqb_eq in B2. destruct B2 as [B2 B3]. unfold blocker in B3. apply existsb_exists in B3. destruct B3 as [b [X1 X2]]. apply mine_own in X1. eauto.
  - intros [H1 [H2 [b [H3 H4]]]]. pose proof H3 as H3'. apply in_own in H3'. destruct H3' as [B [T K]].
    destruct (source info rel comp exec tr W LR r b B) as [rb [R1 [R2 [R3 R4]]]]. apply in_all_requests in R1. destruct R1 as [R1 R5].
    assert (E : rb_task rb = tsk) by (apply (info_inj info W); [exact R1|exact Htsk|unfold i in T; congruence]).
    exists (map (pair r) (filter (fun a => Nat.eqb (tcpu info (cr_task a)) p && blocker r a) (tr r))). split.
    + apply in_map_iff. exists (rb_req rb). unfold rb_res in R3. rewrite R3. split; [reflexivity|]. rewrite <- E. exact R5.
    + apply in_map. apply filter_In. split; [exact H1|]. rewrite andb_true_iff, Nat.eqb_eq. split; [exact H2|]. apply existsb_exists. exists b. split; [apply mine_own; exact H3|exact H4].
Qed.

(** one request of the job per direct blocker *)
Lemma blocks_unique r h b b' : In h (tr r) -> In (r, b) own -> In (r, b') own -> blocks r h b = true -> blocks r h b' = true -> b = b'.
Proof.
  intros H B B' X X'. destruct (blocks_facts r h b H B X) as [F _]. destruct (blocks_facts r h b' H B' X') as [F' _]. pose proof (own_times r b B). pose proof (own_times r b' B').
  destruct (own_order r r b b' B B') as [E|[E|E]]; [congruence|lia|lia].
Qed.

(** requests that are outstanding at some points in time *)
Lemma points_number (hit : nat -> creq -> bool) x (P : list Z) : In x info ->
  (forall r a, In a (tr r) -> cr_task a = ti_id x -> hit r a = true -> exists z, In z P /\ (cr_issue a <= z < cr_end a)%Z) ->
  nsumN (nhits tr hit) (map (RB x) (ti_requests x)) <= N.of_nat (length P).
Proof.
  intros Hx H. set (S := concat (map (fun rb => map (pair (rb_res rb)) (hits tr hit rb)) (map (RB x) (ti_requests x)))).
  assert (E : nsumN (nhits tr hit) (map (RB x) (ti_requests x)) = N.of_nat (length S)).
  { unfold S. generalize (map (RB x) (ti_requests x)). intros l. induction l as [|rb r IH]; [reflexivity|]. cbn [map concat]. rewrite app_length, map_length.
    change (nsumN (nhits tr hit) (rb :: r)) with (nhits tr hit rb + nsumN (nhits tr hit) r). rewrite IH. unfold nhits. lia. }
  assert (IS : forall r a, In (r, a) S -> In a (tr r) /\ cr_task a = ti_id x /\ hit r a = true).
  { intros r a HS. unfold S in HS. apply in_concat in HS. destruct HS as [l [L1 L2]]. apply in_map_iff in L1. destruct L1 as [rb [<- L1]]. apply in_map_iff in L2. destruct L2 as [c [E2 L2]]. injection E2 as <- <-.
    apply in_hits in L2. apply in_map_iff in L1. destruct L1 as [q [<- _]]. exact L2. }
  rewrite E. enough (length S <= length P)%nat by lia.
  apply (rel_inj (fun p z => (cr_issue (snd p) <= z < cr_end (snd p))%Z)).
  - unfold S. rewrite map_map. apply (nodup_concat fst q_res).
    + destruct W as [_ W2]. apply (W2 x Hx).
    + intros q _. apply FinFun.Injective_map_NoDup; [intros u v E3; congruence|]. apply NoDup_filter. apply (fx_distinct _ _ _ _ _ _ _ EX).
    + intros q p _ Hp. apply in_map_iff in Hp. destruct Hp as [b [<- _]]. reflexivity.
  - intros [r a] Ha. apply IS in Ha. cbn [snd]. apply (H r a); tauto.
  - intros [r a] [s b] z Ha Hb _ Ra Rb. apply IS in Ha, Hb. cbn [snd] in Ra, Rb. apply (outstanding_unique r s a b z); try tauto. destruct Ha as [_ [-> _]], Hb as [_ [-> _]]. reflexivity.
Qed.

(** ** The counts of the code *)
Let resources := split_clusters_by_resource (split_by_cluster info 0).
Let counts := pfmlp_count_direct_blocking tsk resources.

Lemma counts_nth p : (p < num_clusters info)%nat -> i_count (nth p counts inter0) =
  nsumN (fun q => i_count (bound_blocking (for_resource (q_res q) (all_requests (in_cluster p info))) (ti_response tsk) UNLIMITED (q_num q) i 0)) (ti_requests tsk).
Proof.
  intros Hp. unfold counts, pfmlp_count_direct_blocking. set (f := fun res : list (list rbound) => _). rewrite (nth_indep _ inter0 (f [])) by (unfold resources, split_clusters_by_resource; rewrite !map_length; exact Hp).
  rewrite map_nth. unfold resources, split_clusters_by_resource. change (@nil (list rbound)) with (split_by_resource []) at 1. rewrite map_nth, split_by_cluster_nth.
  unfold f. rewrite fold_iadd_count. cbn [inter0 i_count]. rewrite N.add_0_l. apply nsumN_ext. intros q _. unfold count_in_cluster.
  destruct (Nat.ltb_spec (q_res q) (length (split_by_resource (in_cluster p info)))) as [L|L]; [rewrite split_by_resource_nth; reflexivity|].
  rewrite <- split_by_resource_nth, nth_overflow by exact L. reflexivity.
Qed.

Lemma direct_window rb : In rb (all_requests info) -> nhits tr blocker rb <= get_max_num_requests rb (ti_response tsk).
Proof.
  intros Hrb. apply (window_number info rel comp exec tr W SJ LR blocker rb tsk k Hrb Htsk). intros a Ha. apply in_hits in Ha. destruct Ha as [A [T B]].
  unfold blocker in B. apply existsb_exists in B. destruct B as [b [B1 B2]]. apply mine_own in B1. destruct (blocks_facts _ a b A B1 B2) as [F _]. pose proof (own_times _ b B1). exists (cr_issue b). fold i. lia.
Qed.

Lemma fit_sum P : nsumN (fun rb => get_max_num_requests rb (ti_response tsk)) (filter P (all_requests info)) <= UNLIMITED.
Proof. eapply N.le_trans; [apply nsumN_filter_le|exact FIT]. Qed.

Lemma direct_count p : (p < num_clusters info)%nat -> N.of_nat (length (direct p)) <= i_count (nth p counts inter0).
Proof.
  intros Hp. rewrite (counts_nth p Hp). unfold direct. assert (Q : forall q, In q (ti_requests tsk) -> In q (ti_requests tsk)) by auto. revert Q. generalize (ti_requests tsk) at 1 3 4. intros qs.
  induction qs as [|q r IH]; intros Q; [cbn; lia|]. cbn [map concat]. rewrite app_length, map_length, Nat2N.inj_add.
  set (f := fun q0 : reqspec => i_count _) in *. change (nsumN f (q :: r)) with (f q + nsumN f r). apply N.add_le_mono; [|exact (IH (fun x Hx => Q x (or_intror Hx)))].
  clear IH. specialize (Q q (or_introl eq_refl)). unfold f; clear f. set (cont := for_resource (q_res q) (all_requests (in_cluster p info))).
  assert (IC : forall rb, In rb cont -> In rb (all_requests info) /\ rb_res rb = q_res q /\ ti_cluster (rb_task rb) = p).
  { intros rb Hrb. unfold cont, for_resource, in_cluster in Hrb. rewrite all_requests_filter in Hrb. rewrite !filter_In, !Nat.eqb_eq in Hrb. tauto. }
  eapply N.le_trans; [|apply (bound_blocking_count cont _ _ _ _ _ (fun rb => if Nat.eqb (ti_id (rb_task rb)) i then 0 else nhits tr blocker rb))].
  - eapply N.le_trans; [|apply N.eq_le_incl; symmetry; apply (nsumN_ext (fun rb => if Nat.eqb (ti_id (rb_task rb)) i then 0 else nhits tr blocker rb) (nhits tr blocker))].
    + apply N.le_trans with (nsumN (fun rb => N.of_nat (length (filter (fun a => Nat.eqb (cr_task a) (ti_id (rb_task rb))) (filter (fun a => Nat.eqb (tcpu info (cr_task a)) p && blocker (q_res q) a) (tr (q_res q)))))) cont).
      * rewrite nsumN_nsum. enough (X : (length (filter (fun a => Nat.eqb (tcpu info (cr_task a)) p && blocker (q_res q) a) (tr (q_res q))) <= nsum (fun rb => length (filter (fun a => Nat.eqb (cr_task a) (ti_id (rb_task rb))) (filter (fun a => Nat.eqb (tcpu info (cr_task a)) p && blocker (q_res q) a) (tr (q_res q))))) cont)%nat) by lia.
        apply (cover_count (fun rb a => Nat.eqb (cr_task a) (ti_id (rb_task rb)))). intros a Ha. apply filter_In in Ha. destruct Ha as [A1 A2]. apply andb_true_iff in A2. rewrite Nat.eqb_eq in A2. destruct A2 as [A2 A3].
        destruct (source info rel comp exec tr W LR _ a A1) as [rb [R1 [R2 [R3 R4]]]]. exists rb. split; [|apply Nat.eqb_eq; congruence].
        unfold cont, for_resource, in_cluster. rewrite all_requests_filter, !filter_In, !Nat.eqb_eq. repeat split; try assumption. unfold tcpu in A2. rewrite R4 in A2. exact A2.
      * apply nsumN_le. intros rb Hrb. destruct (IC rb Hrb) as [_ [E _]]. unfold nhits, hits. rewrite filter_and, E.
        enough (X : (length (filter (fun a => Nat.eqb (tcpu info (cr_task a)) p && blocker (q_res q) a && Nat.eqb (cr_task a) (ti_id (rb_task rb))) (tr (q_res q))) <= length (filter (fun a => Nat.eqb (cr_task a) (ti_id (rb_task rb)) && blocker (q_res q) a) (tr (q_res q))))%nat) by lia.
        apply filter_length_imp. intros a _ H. rewrite !andb_true_iff in *. tauto.
    + intros rb Hrb. destruct (Nat.eqb_spec (ti_id (rb_task rb)) i) as [E|NE]; [|reflexivity]. unfold nhits. destruct (hits tr blocker rb) as [|a l] eqn:X; [reflexivity|exfalso].
      assert (Ha : In a (hits tr blocker rb)) by (rewrite X; left; reflexivity). apply in_hits in Ha. destruct Ha as [A [T B]]. unfold blocker in B. apply existsb_exists in B. destruct B as [b [B1 B2]]. apply mine_own in B1.
      destruct (blocks_facts _ a b A B1 B2) as [_ F]. congruence.
  - intros rb Hrb. unfold avail, excl. replace (ti_prio (rb_task rb) <? 0) with false by (symmetry; apply N.ltb_ge; lia). rewrite orb_false_r. destruct (Nat.eqb (ti_id (rb_task rb)) i); [lia|].
    destruct (IC rb Hrb) as [R1 [R2 R3]]. apply N.min_glb; [apply direct_window; exact R1|].
    apply N.le_trans with (N.of_nat (length (filter (is_job i k) (tr (q_res q))))); [|exact (lr_number _ _ _ _ _ _ (LR (q_res q)) i k tsk q (info_nth info W tsk Htsk) Q eq_refl)].
    unfold nhits. enough (X : (length (hits tr blocker rb) <= length (filter (is_job i k) (tr (q_res q))))%nat) by lia.
    apply (rel_inj (fun a b => blocks (q_res q) a b = true)).
    + apply NoDup_filter. apply (fx_distinct _ _ _ _ _ _ _ EX).
    + intros a Ha. apply in_hits in Ha. destruct Ha as [A [T B]]. rewrite R2 in *. unfold blocker in B. apply existsb_exists in B. exact B.
    + intros a a' b Ha Ha' Hb Ra Rb. apply in_hits in Ha, Ha'. rewrite R2 in *. apply mine_own in Hb. destruct (blocks_facts _ a b (proj1 Ha) Hb Ra) as [F _]. destruct (blocks_facts _ a' b (proj1 Ha') Hb Rb) as [F' _].
      assert (E : (q_res q, a) = (q_res q, a')) by (apply (outstanding_unique _ _ a a' (cr_issue b)); try tauto; destruct Ha as [_ [-> _]], Ha' as [_ [-> _]]; reflexivity). congruence.
  - eapply N.le_trans; [|apply (fit_sum (fun rb => Nat.eqb (ti_cluster (rb_task rb)) p && Nat.eqb (rb_res rb) (q_res q)))].
    unfold cont, for_resource, in_cluster. rewrite all_requests_filter, filter_and. apply nsumN_le. intros rb Hrb. apply filter_In in Hrb. destruct (Nat.eqb (ti_id (rb_task rb)) i); [lia|]. apply direct_window. apply Hrb.
Qed.

(** ** Remote blocking *)
Definition blocked_at (p : nat) (rb : nat * creq) : bool := existsb (fun h => Nat.eqb (tcpu info (cr_task h)) p && blocks (fst rb) h (snd rb)) (tr (fst rb)).
Definition bs (p : nat) : list (nat * creq) := filter (blocked_at p) own.

Lemma blocked_at_spec p r b : blocked_at p (r, b) = true <-> exists h, In h (tr r) /\ tcpu info (cr_task h) = p /\ blocks r h b = true.
Proof.
  unfold blocked_at; cbn [fst snd]. rewrite existsb_exists. split; intros [h H]; exists h; rewrite andb_true_iff, Nat.eqb_eq in *; tauto.
Qed.

Lemma bs_direct p : (length (bs p) <= length (direct p))%nat.
Proof.
  apply (rel_inj (fun rb rh => fst rb = fst rh /\ In (snd rh) (tr (fst rb)) /\ blocks (fst rb) (snd rh) (snd rb) = true)).
  - apply NoDup_filter, own_nodup.
  - intros [r b] Hb. apply filter_In in Hb. destruct Hb as [B1 B2]. apply blocked_at_spec in B2. destruct B2 as [h [H1 [H2 H3]]]. exists (r, h). cbn [fst snd]. split; [|auto]. apply in_direct. eauto.
  - intros [r b] [s c] [u h] Hb Hc _ [E [H1 H2]] [E' [H1' H2']]. cbn [fst snd] in *. subst r s. apply filter_In in Hb, Hc. f_equal. apply (blocks_unique u h b c); tauto.
Qed.

Let per_cluster := map sort_by_request_length (all_per_cluster (split_by_cluster info 0)).
Let icounts := issued_counts per_cluster tsk.
Let contention := map (map sort_by_request_length) (derive_task_contention (split_by_cluster info 0)).

Lemma per_cluster_nth p : nth p per_cluster [] = sort_by_request_length (all_requests (in_cluster p info)).
Proof.
  unfold per_cluster, all_per_cluster. rewrite map_map. change (@nil rbound) with ((fun x => sort_by_request_length (all_from_cluster x)) []). rewrite map_nth, split_by_cluster_nth. reflexivity.
Qed.

Lemma per_cluster_length : length per_cluster = num_clusters info.
Proof. unfold per_cluster, all_per_cluster. rewrite !map_length. reflexivity. Qed.

Lemma icounts_nth p : (p < num_clusters info)%nat -> nth p icounts 0 =
  nsumN q_num (filter (fun q => 0 <? nsumN (fun rb => q_num (rb_req rb)) (for_resource (q_res q) (nth p per_cluster []))) (ti_requests tsk)).
Proof.
  intros Hp. unfold icounts, issued_counts, count_accesses_for_task. set (g := fun ac : list N => _).
  rewrite (nth_indep _ 0 (g (derive_access_counts []))) by (rewrite !map_length, per_cluster_length; exact Hp). rewrite !map_nth. unfold g. rewrite fold_num_sum, N.add_0_l. f_equal.
  apply filter_ext. intros q. rewrite accessed, access_counts_nth. reflexivity.
Qed.

Lemma bs_issued p : (p < num_clusters info)%nat -> N.of_nat (length (bs p)) <= nth p icounts 0.
Proof.
  intros Hp. rewrite (icounts_nth p Hp). set (acc := fun r => 0 <? nsumN (fun rb => q_num (rb_req rb)) (for_resource r (nth p per_cluster []))).
  eapply N.le_trans; [|apply (own_number acc)]. enough (X : (length (bs p) <= length (filter (fun rb => acc (fst rb)) own))%nat) by lia.
  apply filter_length_imp. intros [r b] _ H. apply blocked_at_spec in H. destruct H as [h [H1 [H2 _]]]. cbn [fst]. unfold acc. apply N.ltb_lt.
  destruct (source info rel comp exec tr W LR r h H1) as [rb [R1 [R2 [R3 R4]]]].
  assert (I : In rb (for_resource r (nth p per_cluster []))).
  { rewrite per_cluster_nth. unfold for_resource. apply filter_In. split; [|apply Nat.eqb_eq; exact R3]. apply (Permutation_in _ (sort_len_perm rb_len _)). unfold in_cluster. rewrite all_requests_filter, filter_In, Nat.eqb_eq.
    split; [exact R1|]. unfold tcpu in H2. rewrite R4 in H2. exact H2. }
  apply (nsumN_in (fun rb => q_num (rb_req rb))) in I. apply in_all_requests in R1. destruct R1 as [R1 R5].
  assert (B := lr_number _ _ _ _ _ _ (LR r) (cr_task h) (cr_job h) (rb_task rb) (rb_req rb) R4 R5 R3).
  assert (C : In h (filter (is_job (cr_task h) (cr_job h)) (tr r))) by (apply filter_In; split; [exact H1|unfold is_job; rewrite !Nat.eqb_refl; reflexivity]).
  destruct (filter (is_job (cr_task h) (cr_job h)) (tr r)); [destruct C|]. cbn [length] in B. lia.
Qed.

Definition max_per_task (p : nat) : N := N.min (i_count (nth p counts inter0)) (nth p icounts 0).

Lemma bs_max p : (p < num_clusters info)%nat -> N.of_nat (length (bs p)) <= max_per_task p.
Proof. intros Hp. unfold max_per_task. pose proof (bs_direct p). pose proof (direct_count p Hp). pose proof (bs_issued p Hp). lia. Qed.

Lemma contention_nth p : nth p contention [] = map (fun x => sort_by_request_length (map (RB x) (ti_requests x))) (in_cluster p info).
Proof.
  unfold contention, derive_task_contention. rewrite map_map. change (@nil (list rbound)) with ((fun x => map sort_by_request_length (task_contention x)) []). rewrite map_nth, split_by_cluster_nth.
  unfold task_contention. rewrite map_map. reflexivity.
Qed.

Lemma contention_length : length contention = num_clusters info.
Proof. unfold contention, derive_task_contention. rewrite !map_length. reflexivity. Qed.

Lemma fold_len {A} (step : interf -> A -> interf) (f : A -> N) l : (forall b a, i_len (step b a) = i_len b + f a) -> forall b, i_len (fold_left step l b) = i_len b + nsumN f l.
Proof. intros H. induction l as [|x r IH]; intros b; [cbn; lia|]. cbn [fold_left]. rewrite IH, H. change (nsumN f (x :: r)) with (f x + nsumN f r). lia. Qed.

Lemma remote_sum : i_len (pfmlp_bound_remote_blocking tsk icounts counts contention) =
  nsumN (fun p => if Nat.eqb p (ti_cluster tsk) then 0 else
    nsumN (fun x => i_len (bound_blocking (sort_by_request_length (map (RB x) (ti_requests x))) (ti_response tsk) (max_per_task p) UNLIMITED i 0)) (in_cluster p info)) (seq 0 (num_clusters info)).
Proof.
  unfold pfmlp_bound_remote_blocking. rewrite contention_length. rewrite (fold_len _ (fun p => if Nat.eqb p (ti_cluster tsk) then 0 else
    nsumN (fun x => i_len (bound_blocking (sort_by_request_length (map (RB x) (ti_requests x))) (ti_response tsk) (max_per_task p) UNLIMITED i 0)) (in_cluster p info))); [reflexivity|].
  intros b p. fold (max_per_task p). destruct (Nat.eqb p (ti_cluster tsk)); cbn [orb]; [lia|]. destruct (N.eqb_spec (max_per_task p) 0) as [E|NE].
  - rewrite E. rewrite (nsumN_ext _ (fun _ => 0) (in_cluster p info)); [rewrite nsumN_zero; lia|]. intros x _. rewrite bound_blocking_greedy, greedy_zero. reflexivity.
  - cbn [iadd i_len]. rewrite fold_iadd_len, contention_nth, nsumN_map. reflexivity.
Qed.

Lemma sorted_requests l : StronglySorted (fun a b => rb_len b <= rb_len a) (sort_by_request_length l).
Proof. apply sort_len_sorted. Qed.

(** the requests of a task *)
Lemma task_part hit x cap prio : In x info -> (Nat.eqb (ti_id x) i || (ti_prio x <? prio)) = false ->
  (forall rb, In rb (map (RB x) (ti_requests x)) -> nhits tr hit rb <= get_max_num_requests rb (ti_response tsk)) ->
  nsumN (nhits tr hit) (map (RB x) (ti_requests x)) <= cap ->
  nsumN (fun rb => nhits tr hit rb * rb_len rb) (map (RB x) (ti_requests x)) <= i_len (bound_blocking (sort_by_request_length (map (RB x) (ti_requests x))) (ti_response tsk) cap UNLIMITED i prio).
Proof.
  intros Hx E H C. assert (PM := sort_len_perm rb_len (map (RB x) (ti_requests x))). fold (sort_by_request_length (map (RB x) (ti_requests x))) in PM.
  rewrite (nsumN_perm _ _ _ PM). apply bound_blocking_len; [apply sorted_requests| |rewrite <- (nsumN_perm _ _ _ PM); exact C].
  intros rb Hrb. apply (Permutation_in _ (Permutation_sym PM)) in Hrb. unfold avail, excl. assert (ER : rb_task rb = x) by (apply in_map_iff in Hrb; destruct Hrb as [q [<- _]]; reflexivity). rewrite ER, E.
  apply N.min_glb; [apply H; exact Hrb|]. eapply N.le_trans; [apply H; exact Hrb|]. eapply N.le_trans; [|exact FIT].
  apply (nsumN_in (fun rb => get_max_num_requests rb (ti_response tsk))). unfold all_requests. apply in_concat. exists (map (RB x) (ti_requests x)). split; [apply in_map_iff; exists x; auto|exact Hrb].
Qed.

Lemma in_cluster_in p x : In x (in_cluster p info) -> In x info /\ ti_cluster x = p.
Proof. unfold in_cluster. rewrite filter_In, Nat.eqb_eq. auto. Qed.

Lemma all_requests_sum f l : nsumN f (all_requests l) = nsumN (fun x => nsumN f (map (RB x) (ti_requests x))) l.
Proof. unfold all_requests. rewrite nsumN_concat, nsumN_map. reflexivity. Qed.

Section Instants.
Context (ts : list Z).
Hypothesis ND : NoDup ts.
Hypothesis PEND : forall t, In t ts -> pending rel comp i k t.

Definition live (hit : nat -> creq -> bool) (r : nat) (a : creq) : bool := hit r a && existsb (exec r a) ts.

Lemma live_window hit rb : In rb (all_requests info) -> nhits tr (live hit) rb <= get_max_num_requests rb (ti_response tsk).
Proof.
  intros Hrb. apply (window_number info rel comp exec tr W SJ LR (live hit) rb tsk k Hrb Htsk). intros a Ha. apply in_hits in Ha. destruct Ha as [A [T B]]. unfold live in B. apply andb_true_iff in B. destruct B as [_ B].
  apply existsb_exists in B. destruct B as [t [T1 T2]]. exists t. apply runs_spec in T2. pose proof (lr_times _ _ _ _ _ _ (LR (rb_res rb)) a A). split; [lia|exact (PEND t T1)].
Qed.

(** another request executes that was issued before the request of the job, on the
    processor of a direct blocker *)
Definition hitR (s : nat) (c : creq) : bool :=
  negb (Nat.eqb (tcpu info (cr_task c)) (ti_cluster tsk)) &&
  existsb (fun rb => blocked_at (tcpu info (cr_task c)) rb && ((stamp s c <? stamp (fst rb) (snd rb))%Z && (cr_issue (snd rb) <? cr_end c)%Z)) own.

Lemma remote_part : (forall t, In t ts -> exists s c, In c (tr s) /\ hitR s c = true /\ exec s c t = true) ->
  N.of_nat (length ts) <= i_len (pfmlp_bound_remote_blocking tsk icounts counts contention).
Proof.
  intros H. set (cont := concat (map (fun p => if Nat.eqb p (ti_cluster tsk) then [] else all_requests (in_cluster p info)) (seq 0 (num_clusters info)))).
  eapply N.le_trans; [apply (charge info rel comp exec tr W LR (live hitR) cont ts runs_times); [|exact ND|]|].
  - intros rb Hrb. unfold cont in Hrb. apply in_concat in Hrb. destruct Hrb as [l [L1 L2]]. apply in_map_iff in L1. destruct L1 as [p [<- _]]. destruct (Nat.eqb p (ti_cluster tsk)); [destruct L2|].
    unfold in_cluster in L2. rewrite all_requests_filter in L2. apply filter_In in L2. apply L2.
  - intros t Ht. destruct (H t Ht) as [s [c [C1 [C2 C3]]]]. destruct (source info rel comp exec tr W LR s c C1) as [rb [R1 [R2 [R3 R4]]]]. exists rb, c.
    pose proof C2 as C2'. unfold hitR in C2'. apply andb_true_iff in C2'. destruct C2' as [NL _]. split; [|split].
    + unfold cont. apply in_concat. exists (all_requests (in_cluster (ti_cluster (rb_task rb)) info)). split.
      * apply in_map_iff. exists (ti_cluster (rb_task rb)). unfold tcpu in NL. rewrite R4 in NL. apply negb_true_iff in NL. rewrite NL. split; [reflexivity|]. apply in_seq. apply in_all_requests in R1. pose proof (cluster_lt info _ (proj1 R1)). lia.
      * unfold in_cluster. rewrite all_requests_filter, filter_In, Nat.eqb_eq. auto.
    + apply in_hits. rewrite R3. split; [exact C1|]. split; [congruence|]. unfold live. rewrite C2. cbn [andb]. apply existsb_exists. exists t. auto.
    + rewrite R3. exact C3.
  - unfold cont. rewrite nsumN_concat, nsumN_map, remote_sum. apply nsumN_le. intros p Hp. apply in_seq in Hp. destruct (Nat.eqb_spec p (ti_cluster tsk)) as [E|NE]; [cbn; lia|].
    rewrite all_requests_sum. apply nsumN_le. intros x Hx. apply in_cluster_in in Hx. destruct Hx as [Hx Cx]. apply task_part; [exact Hx| | |].
    + apply orb_false_iff. split; [apply Nat.eqb_neq; intros E; apply NE; rewrite <- Cx; f_equal; apply (info_inj info W); assumption|apply N.ltb_ge; lia].
    + intros rb Hrb. apply live_window. apply in_all_requests. apply in_map_iff in Hrb. destruct Hrb as [q [<- Hq]]. split; assumption.
    + eapply N.le_trans; [|apply (bs_max p); lia]. rewrite <- (map_length (fun rb : nat * creq => cr_issue (snd rb)) (bs p)). apply points_number; [exact Hx|].
      intros s c C1 C2 C3. unfold live in C3. apply andb_true_iff in C3. destruct C3 as [C3 _]. unfold hitR in C3. apply andb_true_iff in C3. destruct C3 as [_ C3].
      apply existsb_exists in C3. destruct C3 as [[r b] [B1 B2]]. cbn [fst snd] in B2. rewrite !andb_true_iff, !Z.ltb_lt in B2. destruct B2 as [B2 [B3 B4]].
      assert (P : tcpu info (cr_task c) = p) by (unfold tcpu; rewrite C2, (info_nth info W x Hx); exact Cx). rewrite P in B2.
      exists (cr_issue b). split; [apply in_map_iff; exists (r, b); split; [reflexivity|]; apply filter_In; auto|]. apply in_own in B1.
      assert (I := fx_stamp _ _ _ _ _ _ _ EX s r c b C1 (proj1 B1) B3). lia.
Qed.

(** ... or it executed when the direct blocker obtained the lock *)
Definition hitN (s : nat) (c : creq) : bool :=
  negb (Nat.eqb (tcpu info (cr_task c)) (ti_cluster tsk)) && existsb (fun rh => exec s c (cr_start (snd rh))) (direct (tcpu info (cr_task c))).

Lemma np_sum : i_len (pfmlp_bound_np_blocking tsk counts per_cluster) =
  nsumN (fun p => if Nat.eqb p (ti_cluster tsk) then 0 else
    i_len (bound_blocking (sort_by_request_length (all_requests (in_cluster p info))) (ti_response tsk) (i_count (nth p counts inter0)) (i_count (nth p counts inter0)) i 0)) (seq 0 (num_clusters info)).
Proof.
  unfold pfmlp_bound_np_blocking. rewrite per_cluster_length. rewrite (fold_len _ (fun p => if Nat.eqb p (ti_cluster tsk) then 0 else
    i_len (bound_blocking (sort_by_request_length (all_requests (in_cluster p info))) (ti_response tsk) (i_count (nth p counts inter0)) (i_count (nth p counts inter0)) i 0))); [reflexivity|].
  intros b p. destruct (Nat.eqb p (ti_cluster tsk)); [lia|]. cbn [iadd i_len]. rewrite per_cluster_nth. reflexivity.
Qed.

Lemma np_part : (forall t, In t ts -> exists s c, In c (tr s) /\ hitN s c = true /\ exec s c t = true) ->
  N.of_nat (length ts) <= i_len (pfmlp_bound_np_blocking tsk counts per_cluster).
Proof.
  intros H. set (cont := concat (map (fun p => if Nat.eqb p (ti_cluster tsk) then [] else all_requests (in_cluster p info)) (seq 0 (num_clusters info)))).
  eapply N.le_trans; [apply (charge info rel comp exec tr W LR (live hitN) cont ts runs_times); [|exact ND|]|].
  - intros rb Hrb. unfold cont in Hrb. apply in_concat in Hrb. destruct Hrb as [l [L1 L2]]. apply in_map_iff in L1. destruct L1 as [p [<- _]]. destruct (Nat.eqb p (ti_cluster tsk)); [destruct L2|].
    unfold in_cluster in L2. rewrite all_requests_filter in L2. apply filter_In in L2. apply L2.
  - intros t Ht. destruct (H t Ht) as [s [c [C1 [C2 C3]]]]. destruct (source info rel comp exec tr W LR s c C1) as [rb [R1 [R2 [R3 R4]]]]. exists rb, c.
    pose proof C2 as C2'. unfold hitN in C2'. apply andb_true_iff in C2'. destruct C2' as [NL _]. split; [|split].
    + unfold cont. apply in_concat. exists (all_requests (in_cluster (ti_cluster (rb_task rb)) info)). split.
      * apply in_map_iff. exists (ti_cluster (rb_task rb)). unfold tcpu in NL. rewrite R4 in NL. apply negb_true_iff in NL. rewrite NL. split; [reflexivity|]. apply in_seq. apply in_all_requests in R1. pose proof (cluster_lt info _ (proj1 R1)). lia.
      * unfold in_cluster. rewrite all_requests_filter, filter_In, Nat.eqb_eq. auto.
    + apply in_hits. rewrite R3. split; [exact C1|]. split; [congruence|]. unfold live. rewrite C2. cbn [andb]. apply existsb_exists. exists t. auto.
    + rewrite R3. exact C3.
  - unfold cont. rewrite nsumN_concat, nsumN_map, np_sum. apply nsumN_le. intros p Hp. apply in_seq in Hp. destruct (Nat.eqb_spec p (ti_cluster tsk)) as [E|NE]; [cbn; lia|].
    set (l := all_requests (in_cluster p info)). assert (PM := sort_len_perm rb_len l). fold (sort_by_request_length l) in PM.
    assert (IL : forall rb, In rb l -> In rb (all_requests info) /\ ti_cluster (rb_task rb) = p) by (intros rb Hrb; unfold l, in_cluster in Hrb; rewrite all_requests_filter, filter_In, Nat.eqb_eq in Hrb; exact Hrb).
    assert (TOT : nsumN (nhits tr (live hitN)) l <= i_count (nth p counts inter0)).
    { eapply N.le_trans; [|apply (direct_count p); lia]. set (S := concat (map (fun rb => map (pair (rb_res rb)) (hits tr (live hitN) rb)) l)).
      assert (E : nsumN (nhits tr (live hitN)) l = N.of_nat (length S)).
      { unfold S. clear. induction l as [|rb r IH]; [reflexivity|]. cbn [map concat]. rewrite app_length, map_length.
        change (nsumN (nhits tr (live hitN)) (rb :: r)) with (nhits tr (live hitN) rb + nsumN (nhits tr (live hitN)) r). rewrite IH. unfold nhits. lia. }
      assert (IS : forall s c, In (s, c) S -> In c (tr s) /\ tcpu info (cr_task c) = p /\ hitN s c = true).
      { intros s c HS. unfold S in HS. apply in_concat in HS. destruct HS as [l' [L1 L2]]. apply in_map_iff in L1. destruct L1 as [rb [<- L1]]. apply in_map_iff in L2. destruct L2 as [c' [E2 L2]]. injection E2 as <- <-.
        apply in_hits in L2. destruct L2 as [L2 [L3 L4]]. unfold live in L4. apply andb_true_iff in L4. destruct (IL rb L1) as [I1 I2]. apply in_all_requests in I1. split; [exact L2|]. split; [|apply L4].
        unfold tcpu. rewrite L3, (info_nth info W _ (proj1 I1)). exact I2. }
      rewrite E. enough (length S <= length (direct p))%nat by lia.
      apply (rel_inj (fun sc rh => exec (fst sc) (snd sc) (cr_start (snd rh)) = true)).
      - assert (NDl : NoDup (map (fun rb => (ti_id (rb_task rb), rb_res rb)) l)).
        { unfold l. clear - W. destruct W as [W1 W2]. unfold in_cluster. set (f := filter _ info). assert (F1 : NoDup (map ti_id f)).
          { subst f. assert (N0 : NoDup (map ti_id info)) by (rewrite W1; apply seq_NoDup). clear - N0. induction info as [|x r IH]; [constructor|]. cbn [map filter] in *. inversion N0 as [|u v NI N1]; subst.
            destruct (Nat.eqb (ti_cluster x) p); [|apply IH; exact N1]. cbn [map]. constructor; [|apply IH; exact N1]. intros X. apply NI. apply in_map_iff in X. destruct X as [y [<- Y]]. apply filter_In in Y. apply in_map. apply Y. }
          assert (F2 : forall x, In x f -> NoDup (map q_res (ti_requests x))) by (intros x Hx; apply filter_In in Hx; apply (W2 x); apply Hx). clearbody f. clear - F1 F2.
          unfold all_requests. rewrite concat_map, map_map. apply (nodup_concat fst ti_id); [exact F1| |].
          - intros x Hx. rewrite map_map. cbn [rb_task]. change (NoDup (map (fun q => (ti_id x, q_res q)) (ti_requests x))). rewrite <- (map_map q_res (pair (ti_id x))). apply FinFun.Injective_map_NoDup; [intros u v E; congruence|]. apply F2. exact Hx.
          - intros x a _ Ha. apply in_map_iff in Ha. destruct Ha as [rb [<- Hrb]]. apply in_map_iff in Hrb. destruct Hrb as [q [<- _]]. reflexivity. }
        unfold S. assert (ILt : forall rb c, In rb l -> In c (hits tr (live hitN) rb) -> cr_task c = ti_id (rb_task rb)) by (intros rb c _ Hc; apply in_hits in Hc; apply Hc).
        clear - NDl ILt EX. induction l as [|rb r IH]; [constructor|]. cbn [map concat] in *. inversion NDl as [|u v NI N1]; subst. apply NoDup_app_intro.
        + apply FinFun.Injective_map_NoDup; [intros u v E; congruence|]. apply NoDup_filter. apply (fx_distinct _ _ _ _ _ _ _ EX).
        + apply IH; [exact N1|]. intros rb' c Hrb' Hc. apply ILt; [right; exact Hrb'|exact Hc].
        + intros [s c] H1 H2. apply in_map_iff in H1. destruct H1 as [c' [E H1]]. injection E as <- <-. apply in_concat in H2. destruct H2 as [l' [L1 L2]]. apply in_map_iff in L1. destruct L1 as [rb' [<- L1]].
          apply in_map_iff in L2. destruct L2 as [c2 [E L2]]. injection E as E1 E2. subst c2. apply NI. apply in_map_iff. exists rb'. split; [|exact L1]. f_equal; [|exact E1].
          rewrite <- (ILt rb c' (or_introl eq_refl) H1). symmetry. apply (ILt rb' c' (or_intror L1) L2).
      - intros [s c] HS. apply IS in HS. destruct HS as [_ [P HN]]. unfold hitN in HN. apply andb_true_iff in HN. destruct HN as [_ HN]. rewrite P in HN. apply existsb_exists in HN. exact HN.
      - intros [s c] [s' c'] rh HS HS' _ R R'. apply IS in HS, HS'. cbn [fst snd] in R, R'. apply (runs_unique s s' c c' _ (proj1 HS) (proj1 HS')) with (3 := R'); [destruct HS as [_ [-> _]], HS' as [_ [-> _]]; reflexivity|exact R]. }
    rewrite (nsumN_perm _ _ _ PM). apply bound_blocking_len; [apply sorted_requests| |rewrite <- (nsumN_perm _ _ _ PM); exact TOT].
    intros rb Hrb. apply (Permutation_in _ (Permutation_sym PM)) in Hrb. destruct (IL rb Hrb) as [I1 I2]. unfold avail, excl.
    replace (Nat.eqb (ti_id (rb_task rb)) i) with false by (symmetry; apply Nat.eqb_neq; intros E; apply NE; rewrite <- I2; f_equal; apply in_all_requests in I1; apply (info_inj info W); [apply I1|exact Htsk|exact E]).
    replace (ti_prio (rb_task rb) <? 0) with false by (symmetry; apply N.ltb_ge; lia). cbn [orb]. apply N.min_glb; [apply live_window; exact I1|]. eapply N.le_trans; [|exact TOT]. apply nsumN_in. exact Hrb.
Qed.

(** ** Local blocking *)
Definition susp : list (nat * creq) := filter (fun rb => (cr_issue (snd rb) <? cr_start (snd rb))%Z) own.
Definition points : list Z := rel i k :: map (fun rb => cr_start (snd rb)) susp.

Lemma in_susp r b : In (r, b) susp <-> In (r, b) own /\ (cr_issue b < cr_start b)%Z.
Proof. unfold susp. rewrite filter_In. cbn [snd]. rewrite Z.ltb_lt. reflexivity. Qed.

Lemma held r b t : In (r, b) own -> (cr_issue b <= t < cr_start b)%Z -> exists h, In h (tr r) /\ (cr_start h <= t < cr_end h)%Z /\ blocks r h b = true.
Proof.
  intros B T. apply in_own in B. destruct (fx_held _ _ _ _ _ _ _ EX r b t (proj1 B) T) as [h [H1 [H2 H3]]]. exists h. split; [exact H1|]. split; [exact H2|].
  unfold blocks. rewrite andb_true_iff, !Z.ltb_lt. lia.
Qed.

Lemma counts_length : length counts = num_clusters info.
Proof. unfold counts, pfmlp_count_direct_blocking, resources, split_clusters_by_resource. rewrite !map_length. reflexivity. Qed.

Lemma map_nth_seq {A} (d : A) (l : list A) : map (fun p => nth p l d) (seq 0 (length l)) = l.
Proof. induction l as [|x r IH]; [reflexivity|]. cbn [length seq map nth]. f_equal. rewrite <- seq_shift, map_map. exact IH. Qed.

Lemma susp_direct : N.of_nat (length susp) <= i_count (fold_left iadd counts inter0).
Proof.
  change (fold_left iadd counts inter0) with (fold_left (fun s a => iadd s (id a)) counts inter0). rewrite (fold_iadd_count id). cbn [inter0 i_count]. rewrite N.add_0_l. rewrite <- (map_nth_seq inter0 counts), nsumN_map, counts_length. unfold id.
  apply N.le_trans with (nsumN (fun p => N.of_nat (length (direct p))) (seq 0 (num_clusters info))).
  - rewrite nsumN_nsum. assert (E : nsum (fun p => length (direct p)) (seq 0 (num_clusters info)) = length (concat (map direct (seq 0 (num_clusters info))))).
    { generalize (seq 0 (num_clusters info)). intros l. induction l as [|p r IH]; [reflexivity|]. cbn [map concat]. rewrite app_length, <- IH. reflexivity. }
    rewrite E. enough (length susp <= length (concat (map direct (seq 0 (num_clusters info)))))%nat by lia.
    apply (rel_inj (fun rb rh => fst rb = fst rh /\ In (snd rh) (tr (fst rb)) /\ blocks (fst rb) (snd rh) (snd rb) = true)).
    + apply NoDup_filter, own_nodup.
    + intros [r b] Hb. apply in_susp in Hb. destruct Hb as [B1 B2]. destruct (held r b (cr_issue b) B1 ltac:(lia)) as [h [H1 [H2 H3]]]. exists (r, h). cbn [fst snd]. split; [|auto].
      destruct (task_of r h H1) as [u [U1 [U2 [U3 U4]]]]. apply in_concat. exists (direct (ti_cluster u)). split; [apply in_map; apply in_seq; pose proof (cluster_lt info u U2); lia|]. apply in_direct. split; [exact H1|]. split; [exact U4|]. eauto.
    + intros [r b] [s c] [u h] Hb Hc _ [E0 [H1 H2]] [E' [H1' H2']]. cbn [fst snd] in *. subst r s. apply in_susp in Hb, Hc. f_equal. apply (blocks_unique u h b c); tauto.
  - apply nsumN_le. intros p Hp. apply in_seq in Hp. apply direct_count. lia.
Qed.

Definition num_arrivals : N := N.min (get_num_arrivals tsk) (i_count (fold_left iadd counts inter0) + 1).

Lemma points_length : N.of_nat (length points) <= num_arrivals.
Proof.
  unfold points, num_arrivals. cbn [length]. rewrite map_length, Nat2N.inj_succ. pose proof susp_direct. apply N.min_glb; [|lia].
  unfold get_num_arrivals, get_total_num_requests. assert (E := fold_num_sum q_num (fun _ => true) (ti_requests tsk) 0). cbv beta iota in E. rewrite E, N.add_0_l.
  assert (O := own_number (fun _ => true)). cbv beta in O. assert (L := filter_length_le (fun rb => (cr_issue (snd rb) <? cr_start (snd rb))%Z) own). rewrite (filter_true own) in O. unfold susp. lia.
Qed.

Definition hitL (s : nat) (a : creq) : bool :=
  Nat.eqb (tcpu info (cr_task a)) (ti_cluster tsk) && (ti_prio tsk <? tprio info (cr_task a)) && existsb (fun z => (cr_issue a <=? z)%Z && (z <? cr_end a)%Z) points.

Lemma local_part : (forall t, In t ts -> exists s a, In a (tr s) /\ hitL s a = true /\ exec s a t = true) ->
  N.of_nat (length ts) <= i_len (pfmlp_bound_local_blocking tsk counts contention).
Proof.
  intros H. set (cont := all_requests (in_cluster (ti_cluster tsk) info)).
  eapply N.le_trans; [apply (charge info rel comp exec tr W LR (live hitL) cont ts runs_times); [|exact ND|]|].
  - intros rb Hrb. unfold cont, in_cluster in Hrb. rewrite all_requests_filter in Hrb. apply filter_In in Hrb. apply Hrb.
  - intros t Ht. destruct (H t Ht) as [s [a [C1 [C2 C3]]]]. destruct (source info rel comp exec tr W LR s a C1) as [rb [R1 [R2 [R3 R4]]]]. exists rb, a.
    pose proof C2 as C2'. unfold hitL in C2'. rewrite !andb_true_iff, Nat.eqb_eq in C2'. destruct C2' as [[NL _] _]. split; [|split].
    + unfold cont, in_cluster. rewrite all_requests_filter, filter_In, Nat.eqb_eq. split; [exact R1|]. unfold tcpu in NL. rewrite R4 in NL. exact NL.
    + apply in_hits. rewrite R3. split; [exact C1|]. split; [congruence|]. unfold live. rewrite C2. cbn [andb]. apply existsb_exists. exists t. auto.
    + rewrite R3. exact C3.
  - unfold pfmlp_bound_local_blocking. cbv zeta. fold num_arrivals. rewrite fold_iadd_len, contention_nth, nsumN_map. cbn [inter0 i_len]. rewrite N.add_0_l. unfold cont. rewrite all_requests_sum. apply nsumN_le.
    intros x Hx. apply in_cluster_in in Hx. destruct Hx as [Hx Cx].
    assert (Z : ti_prio x <= ti_prio tsk -> nsumN (fun rb => nhits tr (live hitL) rb * rb_len rb) (map (RB x) (ti_requests x)) = 0).
    { intros L. rewrite (nsumN_ext _ (fun _ => 0)); [apply nsumN_zero|]. intros rb Hrb. unfold nhits. destruct (hits tr (live hitL) rb) as [|a l] eqn:X; [reflexivity|exfalso].
      assert (Ha : In a (hits tr (live hitL) rb)) by (rewrite X; left; reflexivity). apply in_hits in Ha. destruct Ha as [A [T B]]. unfold live, hitL in B. rewrite !andb_true_iff, N.ltb_lt in B.
      apply in_map_iff in Hrb. destruct Hrb as [q [<- _]]. cbn [rb_task] in T. unfold tprio in B. rewrite T, (info_nth info W x Hx) in B. lia. }
    destruct (Nat.eqb (ti_id x) (ti_id tsk) || (ti_prio x <? ti_prio tsk)) eqn:EX0.
    { rewrite Z; [lia|]. apply orb_true_iff in EX0. rewrite Nat.eqb_eq, N.ltb_lt in EX0. destruct EX0 as [E|E]; [|lia]. rewrite (info_inj info W x tsk Hx Htsk E). lia. }
    apply task_part; [exact Hx|exact EX0| |].
    + intros rb Hrb. apply live_window. apply in_all_requests. apply in_map_iff in Hrb. destruct Hrb as [q [<- Hq]]. split; assumption.
    + eapply N.le_trans; [|apply points_length]. apply points_number; [exact Hx|].
      intros s a C1 C2 C3. unfold live in C3. apply andb_true_iff in C3. destruct C3 as [C3 _]. unfold hitL in C3. rewrite !andb_true_iff in C3. destruct C3 as [_ C3].
      apply existsb_exists in C3. destruct C3 as [z [Z1 Z2]]. rewrite andb_true_iff, Z.leb_le, Z.ltb_lt in Z2. exists z. auto.
Qed.
End Instants.

Lemma last_point (l : list Z) z0 tau : In z0 l -> (z0 <= tau)%Z -> exists z, In z l /\ (z <= tau)%Z /\ forall y, In y l -> (y <= tau)%Z -> (y <= z)%Z.
Proof.
  revert z0. induction l as [|x r IH]; intros z0 H L; [destruct H|].
  destruct (existsb (fun y => (y <=? tau)%Z) r) eqn:E.
  - apply existsb_exists in E. destruct E as [y [Y1 Y2]]. apply Z.leb_le in Y2. destruct (IH y Y1 Y2) as [z [Z1 [Z2 Z3]]].
    destruct (Z_le_dec x tau) as [X|X]; [destruct (Z_le_dec x z) as [X'|X']|].
    + exists z. split; [right; exact Z1|]. split; [exact Z2|]. intros w [<-|Hw] Lw; [exact X'|apply Z3; assumption].
    + exists x. split; [left; reflexivity|]. split; [exact X|]. intros w [<-|Hw] Lw; [lia|]. specialize (Z3 w Hw Lw). lia.
    + exists z. split; [right; exact Z1|]. split; [exact Z2|]. intros w [<-|Hw] Lw; [lia|apply Z3; assumption].
  - assert (N : forall y, In y r -> (tau < y)%Z). { intros y Hy. destruct (Z_lt_le_dec tau y) as [X|X]; [exact X|]. exfalso. apply not_true_iff_false in E. apply E. apply existsb_exists. exists y. split; [exact Hy|apply Z.leb_le; exact X]. }
    destruct H as [->|H]; [|specialize (N z0 H); lia]. exists z0. split; [left; reflexivity|]. split; [exact L|]. intros y [<-|Hy] Ly; [lia|specialize (N y Hy); lia].
Qed.

(** a local request of lower priority is outstanding at the release of the job or
    when it resumes *)
Lemma hitL_intro s a t tau : In a (tr s) -> tcpu info (cr_task a) = ti_cluster tsk -> (ti_prio tsk < tprio info (cr_task a))%N -> (t < cr_end a)%Z ->
  (rel i k <= tau)%Z -> (tau <= t)%Z -> (tau < comp i k)%Z -> (cr_issue a <= tau)%Z ->
  (forall r b, In (r, b) own -> (cr_issue b <= tau)%Z -> (cr_start b <= tau)%Z \/ (cr_issue b = tau /\ stamp s a < stamp r b)%Z) -> hitL s a = true.
Proof.
  intros A C P T R1 R2 R3 I K. unfold hitL. rewrite !andb_true_iff, Nat.eqb_eq, N.ltb_lt. split; [auto|]. apply existsb_exists.
  destruct (last_point points (rel i k) tau (or_introl eq_refl) R1) as [z [Z1 [Z2 Z3]]]. exists z. split; [exact Z1|]. rewrite andb_true_iff, Z.leb_le, Z.ltb_lt. split; [|lia].
  destruct (Z_le_dec (cr_issue a) z) as [L|L]; [exact L|exfalso]. pose proof (Z3 (rel i k) (or_introl eq_refl) R1) as RZ.
  assert (PT : forall r b, In (r, b) own -> (cr_issue b < cr_start b)%Z -> (cr_start b <= tau)%Z -> (cr_start b <= z)%Z).
  { intros r b B1 B2 B3. apply Z3; [right; apply in_map_iff; exists (r, b); split; [reflexivity|apply in_susp; auto]|exact B3]. }
  destruct (fx_issue _ _ _ _ _ _ _ EX i k tsk s a (info_nth info W tsk Htsk) A C P) as [X|[r [b [B1 [B2 [B3 [B4 [B5 B6]]]]]]]].
  - unfold pending. lia.
  - intros [r [b [B1 [B2 [B3 B4]]]]]. assert (O : In (r, b) own) by (apply in_own; auto). destruct (K r b O ltac:(lia)) as [Y|[Y _]]; [|lia]. specialize (PT r b O ltac:(lia) Y). lia.
  - lia.
  - assert (O : In (r, b) own) by (apply in_own; auto). destruct (K r b O ltac:(lia)) as [Y|[_ Y]]; [|lia]. specialize (PT r b O B5 Y). lia.
Qed.

Definition shares_locally : Prop := exists x q q', In x info /\ ti_id x <> i /\ ti_cluster x = ti_cluster tsk /\ In q (ti_requests x) /\ In q' (ti_requests tsk) /\ q_res q = q_res q'.

Lemma local_hit t : np = false \/ ~ shares_locally -> blocked_locally info rel comp sched tr i k t -> exists s a, In a (tr s) /\ hitL s a = true /\ exec s a t = true.
Proof.
  intros NP [[tsk' [N1 [PE PI]]] NR]. assert (tsk' = tsk) as -> by (unfold i in N1; rewrite (info_nth info W tsk Htsk) in N1; congruence).
  destruct (existsb (fun rb => (cr_issue (snd rb) <=? t)%Z && (t <? cr_start (snd rb))%Z) own) eqn:S.
  - apply existsb_exists in S. destruct S as [[r b] [B1 B2]]. cbn [snd] in B2. rewrite andb_true_iff, Z.leb_le, Z.ltb_lt in B2. destruct (held r b t B1 B2) as [h [H1 [H2 H3]]].
    destruct (blocks_facts r h b H1 B1 H3) as [F1 F2]. pose proof (own_times r b B1) as TB.
    assert (HC : tcpu info (cr_task h) = ti_cluster tsk).
    { rewrite <- tcpu_i. destruct (Nat.eq_dec (tcpu info (cr_task h)) (tcpu info i)) as [E|NE]; [exact E|exfalso]. apply NR. apply in_own in B1. exists r, b, h. tauto. }
    destruct (fx_boost _ _ _ _ _ _ _ EX r h t H1 H2) as [s [c [C1 [C2 [C3 C4]]]]]. exists s, c. split; [exact C1|]. split; [|exact C3].
    pose proof C3 as C3'. apply runs_spec in C3'. destruct C3' as [C5 C6]. rewrite C2, HC in C6.
    assert (ST : (stamp s c <= stamp r h)%Z).
    { destruct C4 as [C4|[C4 _]]; [exact C4|exfalso]. destruct NP as [NP|NP]; [congruence|]. apply NP.
      destruct (source info rel comp exec tr W LR r h H1) as [rb [X1 [X2 [X3 X4]]]]. apply in_all_requests in X1. pose proof B1 as B1'. apply in_own in B1'. destruct B1' as [Y1 [Y2 Y3]].
      destruct (source info rel comp exec tr W LR r b Y1) as [rb' [V1 [V2 [V3 V4]]]]. apply in_all_requests in V1.
      exists (rb_task rb), (rb_req rb), (rb_req rb'). split; [apply X1|]. split; [congruence|]. split; [unfold tcpu in HC; rewrite X4 in HC; exact HC|]. split; [apply X1|].
      split; [|unfold rb_res in X3, V3; congruence]. assert (E : rb_task rb' = tsk) by (apply (info_inj info W); [apply V1|exact Htsk|unfold i in Y2; congruence]). rewrite <- E. apply V1. }
    assert (SB : (stamp s c < stamp r b)%Z) by lia. pose proof B1 as B1'. apply in_own in B1'. assert (I := fx_stamp _ _ _ _ _ _ _ EX s r c b C1 (proj1 B1') SB).
    apply (hitL_intro s c t (cr_issue b)); try assumption; try lia; [exact (PI _ _ C6)|].
    intros r' b' O L. destruct (own_order r r' b b' B1 O) as [E|[E|E]].
    + injection E as <- <-. right. split; [reflexivity|exact SB].
    + pose proof (own_times r' b' O). lia.
    + pose proof (own_times r' b' O). lia.
  - assert (NS : forall r b, In (r, b) own -> (cr_issue b <= t)%Z -> (cr_start b <= t)%Z).
    { intros r b O L. destruct (Z_lt_le_dec t (cr_start b)) as [X|X]; [|exact X]. exfalso. apply not_true_iff_false in S. apply S. apply existsb_exists. exists (r, b). split; [exact O|]. cbn [snd]. rewrite andb_true_iff, Z.leb_le, Z.ltb_lt. lia. }
    destruct (fx_schedule _ _ _ _ _ _ _ EX i k tsk t N1 PE) as [j [l [S1 S2]]].
    { intros [r [b [B1 [B2 [B3 B4]]]]]. specialize (NS r b (proj2 (in_own r b) (conj B1 (conj B2 B3)))). lia. }
    pose proof (PI j l S1) as LP. destruct S2 as [S2|[r [a [A1 [A2 [A3 A4]]]]]]; [lia|]. destruct (fx_cpu _ _ _ _ _ _ _ EX _ _ _ _ S1) as [CP _]. subst j l.
    exists r, a. split; [exact A1|]. split; [|apply runs_spec; split; [exact A4|rewrite CP; exact S1]]. pose proof (lr_times _ _ _ _ _ _ (LR r) a A1). unfold pending in PE.
    apply (hitL_intro r a t t); try assumption; try lia. intros r' b' O L. left. apply (NS r' b' O L).
Qed.

(** remote waiting is charged to a request on the processor of the lock holder *)
Lemma remote_hit t : waits_for_remote info tr i k t -> pending rel comp i k t /\ exists s c, In c (tr s) /\ exec s c t = true /\ (hitR s c = true \/ np = true /\ hitN s c = true).
Proof.
  intros [r [b [h [B1 [B2 [B3 [B4 [H1 [H2 H3]]]]]]]]]. assert (O : In (r, b) own) by (apply in_own; auto). pose proof (own_times r b O) as TB. split; [unfold pending; lia|].
  destruct (held r b t O B4) as [h' [X1 [X2 X3]]]. assert (h' = h) as ->.
  { assert (DEC : {h' = h} + {h' <> h}) by (repeat decide equality). destruct DEC as [E|NE]; [exact E|exfalso]. destruct (fx_fifo _ _ _ _ _ _ _ EX r h' h X1 H1 NE) as [[_ F]|[_ F]]; lia. }
  destruct (blocks_facts r h b H1 O X3) as [F _]. destruct (fx_boost _ _ _ _ _ _ _ EX r h t H1 H2) as [s [c [C1 [C2 [C3 C4]]]]]. exists s, c. split; [exact C1|]. split; [exact C3|].
  pose proof C3 as C3'. apply runs_spec in C3'. destruct C3' as [C5 _]. rewrite tcpu_i in H3.
  assert (NL : negb (Nat.eqb (tcpu info (cr_task c)) (ti_cluster tsk)) = true) by (apply negb_true_iff, Nat.eqb_neq; congruence).
  destruct C4 as [C4|[C4 C6]]; [left|right; split; [exact C4|]].
  - unfold hitR. rewrite NL. cbn [andb]. apply existsb_exists. exists (r, b). split; [exact O|]. cbn [fst snd]. rewrite !andb_true_iff, !Z.ltb_lt. split; [apply blocked_at_spec; exists h; repeat split; [exact H1|congruence|exact X3]|lia].
  - unfold hitN. rewrite NL. cbn [andb]. apply existsb_exists. exists (r, h). split; [|exact C6]. rewrite C2. apply in_direct. split; [exact H1|]. split; [reflexivity|]. eauto.
Qed.

Let remote := pfmlp_bound_remote_blocking tsk icounts counts contention.
Let local := pfmlp_bound_local_blocking tsk counts contention.
Let nonpre := pfmlp_bound_np_blocking tsk counts per_cluster.

Lemma filter_split {A} (p : A -> bool) l : length l = (length (filter p l) + length (filter (fun a => negb (p a)) l))%nat.
Proof. induction l as [|x r IH]; [reflexivity|]. cbn [filter]. destruct (p x); cbn [negb length]; lia. Qed.

Lemma remote_safe ts : NoDup ts -> (forall t, In t ts -> waits_for_remote info tr i k t) -> N.of_nat (length ts) <= i_len (if np then iadd remote nonpre else remote).
Proof.
  intros ND H. set (f := fun t => existsb (fun rb => existsb (fun c => hitR (rb_res rb) c && exec (rb_res rb) c t) (tr (rb_res rb))) (all_requests info)).
  assert (FT : forall t, (exists s c, In c (tr s) /\ exec s c t = true /\ hitR s c = true) <-> f t = true).
  { intros t. unfold f. rewrite existsb_exists. split.
    - intros [s [c [C1 [C2 C3]]]]. destruct (source info rel comp exec tr W LR s c C1) as [rb [R1 [R2 [R3 R4]]]]. exists rb. split; [exact R1|]. apply existsb_exists. exists c. rewrite R3, C2, C3. auto.
    - intros [rb [R1 R2]]. apply existsb_exists in R2. destruct R2 as [c [C1 C2]]. apply andb_true_iff in C2. exists (rb_res rb), c. tauto. }
  assert (PE : forall t, In t ts -> pending rel comp i k t) by (intros t Ht; apply (remote_hit t (H t Ht))).
  rewrite (filter_split f ts), Nat2N.inj_add.
  assert (A : N.of_nat (length (filter f ts)) <= i_len remote).
  { apply (remote_part (filter f ts) (NoDup_filter _ ND)); [intros t Ht; apply PE; apply filter_In in Ht; apply Ht|]. intros t Ht. apply filter_In in Ht. destruct Ht as [_ Ht]. apply FT in Ht. destruct Ht as [s [c X]]. exists s, c. tauto. }
  assert (B : forall t, In t (filter (fun t => negb (f t)) ts) -> np = true /\ exists s c, In c (tr s) /\ hitN s c = true /\ exec s c t = true).
  { intros t Ht. apply filter_In in Ht. destruct Ht as [T1 T2]. apply negb_true_iff in T2. destruct (remote_hit t (H t T1)) as [_ [s [c [C1 [C2 [C3|[C3 C4]]]]]]].
    - exfalso. apply not_true_iff_false in T2. apply T2. apply FT. eauto.
    - split; [exact C3|]. exists s, c. auto. }
  destruct (Bool.bool_dec np true) as [ENP|ENP].
  - rewrite ENP. cbn [iadd i_len]. apply N.add_le_mono; [exact A|]. apply (np_part (filter (fun t => negb (f t)) ts) (NoDup_filter _ ND)); [intros t Ht; apply PE; apply filter_In in Ht; apply Ht|]. intros t Ht. apply (B t Ht).
  - destruct (filter (fun t => negb (f t)) ts) as [|t r] eqn:E; [|destruct (B t (or_introl eq_refl)) as [X _]; congruence]. apply not_true_is_false in ENP. rewrite ENP. cbn [length]. lia.
Qed.

Lemma local_safe ts : NoDup ts -> np = false \/ ~ shares_locally -> (forall t, In t ts -> blocked_locally info rel comp sched tr i k t) -> N.of_nat (length ts) <= i_len local.
Proof.
  intros ND NP H. apply (local_part ts ND).
  - intros t Ht. destruct (H t Ht) as [[x [_ [P _]]] _]. exact P.
  - intros t Ht. apply (local_hit t NP (H t Ht)).
Qed.

Definition remotely (t : Z) : bool :=
  existsb (fun rb => (cr_issue (snd rb) <=? t)%Z && (t <? cr_start (snd rb))%Z && existsb (fun h => (cr_start h <=? t)%Z && (t <? cr_end h)%Z && negb (Nat.eqb (tcpu info (cr_task h)) (tcpu info i))) (tr (fst rb))) own.

Lemma remotely_spec t : remotely t = true <-> waits_for_remote info tr i k t.
Proof.
  unfold remotely, waits_for_remote. rewrite existsb_exists. split.
  - intros [[r b] [B1 B2]]. cbn [fst snd] in B2. rewrite !andb_true_iff, Z.leb_le, Z.ltb_lt, existsb_exists in B2. destruct B2 as [B2 [h [H1 H2]]]. rewrite !andb_true_iff, Z.leb_le, Z.ltb_lt, negb_true_iff, Nat.eqb_neq in H2.
    apply in_own in B1. exists r, b, h. tauto.
  - intros [r [b [h [B1 [B2 [B3 [B4 [H1 [H2 H3]]]]]]]]]. exists (r, b). split; [apply in_own; auto|]. cbn [fst snd]. rewrite !andb_true_iff, Z.leb_le, Z.ltb_lt, existsb_exists. split; [exact B4|].
    exists h. rewrite !andb_true_iff, Z.leb_le, Z.ltb_lt, negb_true_iff, Nat.eqb_neq. tauto.
Qed.

Lemma total_safe ts : NoDup ts -> np = false \/ ~ shares_locally -> (forall t, In t ts -> pi_blocked info rel comp sched i k t \/ waits_for_remote info tr i k t) ->
  N.of_nat (length ts) <= i_len (iadd (if np then iadd remote nonpre else remote) local).
Proof.
  intros ND NP H. rewrite (filter_split remotely ts), Nat2N.inj_add. cbn [iadd i_len]. apply N.add_le_mono.
  - apply remote_safe; [apply NoDup_filter; exact ND|]. intros t Ht. apply filter_In in Ht. apply remotely_spec. apply Ht.
  - apply local_safe; [apply NoDup_filter; exact ND|exact NP|]. intros t Ht. apply filter_In in Ht. destruct Ht as [T1 T2]. apply negb_true_iff in T2.
    assert (N : ~ waits_for_remote info tr i k t) by (intros X; apply remotely_spec in X; congruence). split; [|exact N]. destruct (H t T1) as [X|X]; [exact X|contradiction].
Qed.
End Exec.
