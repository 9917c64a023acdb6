(** FIFO spin locks with non-preemptive spinning: how long a request waits, how
    long a job occupies its processor. *)
From Coq Require Import NArith ZArith List Bool Lia Arith.
From Verif Require Import ModelLocking ModelMSRP SpecLocking SpecSpinFP SpecSpinEDF ProofLocking ProofSpin ProofSpinCount ProofSpinFP ProofMSRP.
Import ListNotations.
Open Scope Z_scope.

Lemma count_true s m : count (fun _ => true) s m = m.
Proof. revert s. induction m as [|m IH]; intros s; cbn; [reflexivity|]. rewrite IH. reflexivity. Qed.

Section Rules.
Variables (info : list taskinfo) (E : execution).
Hypothesis LR : lock_rules info E.

Lemma lr_one_request r s a b t : In a (x_tr E r) -> In b (x_tr E s) -> jobof a = jobof b -> cr_issue a <= t < cr_end a -> cr_issue b <= t < cr_end b -> r = s /\ a = b.
Proof.
  intros A B J TA TB. destruct (Nat.eq_dec r s) as [->|N].
  - split; [reflexivity|]. destruct (ForallOrdPairs_In (lr_sequential _ _ LR s) a b A B) as [X|[X|X]]; [exact X|specialize (X J)|specialize (X (eq_sym J))]; unfold apart in X; lia.
  - pose proof (lr_one_at_a_time _ _ LR r s a b N A B J) as X. unfold apart in X; lia.
Qed.

Lemma runs_task j t : runs E info j t = true -> exists k, nth_error info (fst j) = Some k /\ x_sched E (ti_cluster k) t = Some j.
Proof. intros H. destruct (nth_error info (fst j)) as [k|] eqn:X; [|unfold runs in H; rewrite X in H; discriminate]. exists k. split; [reflexivity|]. apply (runs_iff E info j t k X). exact H. Qed.

Lemma runs_same j j' t k k' : nth_error info (fst j) = Some k -> nth_error info (fst j') = Some k' -> ti_cluster k = ti_cluster k' -> runs E info j t = true -> runs E info j' t = true -> j = j'.
Proof. intros A B C R R'. apply (runs_iff E info j t k A) in R. apply (runs_iff E info j' t k' B) in R'. rewrite C in R. congruence. Qed.

Lemma runs_pending j t : runs E info j t = true -> pending E j t.
Proof. intros R. destruct (runs_task j t R) as [k [_ S]]. apply (lr_sched _ _ LR _ _ _ S). Qed.

Lemma req_task r a : In a (x_tr E r) -> exists t, nth_error info (cr_task a) = Some t /\ In t info.
Proof. intros A. destruct (lr_spec _ _ LR r a A) as [t [q [T _]]]. exists t. split; [exact T|eapply nth_error_In; exact T]. Qed.

(** a non-preemptive critical section takes its length *)
Lemma section_length r a : In a (x_tr E r) -> global_resource info r ->
  exists t q, nth_error info (cr_task a) = Some t /\ In q (ti_requests t) /\ q_res q = r /\ cr_end a - cr_start a <= Z.of_N (q_len q).
Proof.
  intros A G. destruct (lr_spec _ _ LR r a A) as [t [q [T [Q [R L]]]]]. exists t, q. repeat split; auto. destruct (lr_times _ _ LR r a A) as [T1 T2].
  assert (X : count (runs E info (jobof a)) (cr_start a) (Z.to_nat (cr_end a - cr_start a)) = Z.to_nat (cr_end a - cr_start a)).
  { rewrite (count_ext _ (fun _ => true)) by (intros u U; apply (lr_nonpreemptive _ _ LR r a u A G); lia). apply count_true. }
  rewrite X in L. lia.
Qed.

Lemma longest_ge k t q : In t info -> ti_cluster t = k -> In q (ti_requests t) -> (q_len q <= longest info k (q_res q))%N.
Proof.
  intros T C Q. unfold longest. fold (in_cluster k info). apply mx_in, in_map, filter_In. split; [|apply Nat.eqb_refl]. apply in_flat_map. exists t. split; [|exact Q]. apply filter_In. split; [exact T|apply Nat.eqb_eq; exact C].
Qed.

Hypothesis FO : fifo_order info E.
Variable n : nat.
Hypothesis CPUS : forall t, In t info -> (ti_cluster t < n)%nat.

Lemma fifo_wait_bound r b t : In b (x_tr E r) -> global_resource info r -> nth_error info (cr_task b) = Some t ->
  cr_start b - cr_issue b <= Z.of_N (fifo_wait info n (ti_cluster t) r).
Proof.
  intros B G T. set (c := ti_cluster t). set (s := cr_issue b). set (m := Z.to_nat (cr_start b - s)). destruct (lr_times _ _ LR r b B) as [TB1 TB2].
  set (on := fun k a => match nth_error info (cr_task a) with Some u => Nat.eqb (ti_cluster u) k | None => false end).
  set (f := fun k x => existsb (fun a => on k a && (cr_start a <=? x) && (x <? cr_end a)) (x_tr E r)).
  assert (FI : forall k x, f k x = true -> exists a u, In a (x_tr E r) /\ nth_error info (cr_task a) = Some u /\ ti_cluster u = k /\ cr_start a <= x < cr_end a).
  { intros k x X. apply existsb_exists in X. destruct X as [a [A X]]. rewrite !andb_true_iff, Z.leb_le, Z.ltb_lt in X. destruct X as [[X1 X2] X3]. unfold on in X1. destruct (nth_error info (cr_task a)) as [u|] eqn:EU; [|discriminate]. apply Nat.eqb_eq in X1. exists a, u. auto. }
  (* holders were issued by [s] and their jobs run at [s] *)
  assert (HOLD : forall a x, In a (x_tr E r) -> s <= x < cr_start b -> cr_start a <= x < cr_end a -> cr_issue a <= s < cr_end a).
  { intros a x A X Y. destruct (lr_times _ _ LR r a A) as [TA1 TA2]. split; [|lia]. destruct (Z.le_gt_cases (cr_issue a) s) as [L|L]; [exact L|]. pose proof (FO r b a G B A ltac:(unfold s in L; lia)) as O. lia. }
  assert (C : (count (fun _ => true) s m <= nsum (fun k => count (f k) s m) (filter (fun k => negb (Nat.eqb k c)) (seq 0 n)))%nat).
  { apply count_cover. intros x X _. destruct (lr_busy _ _ LR r b x B G ltac:(unfold m in X; fold s; lia)) as [a [A Y]]. destruct (req_task r a A) as [u [U IU]].
    exists (ti_cluster u). split.
    - apply filter_In. split; [apply in_seq; pose proof (CPUS u IU); lia|]. apply negb_true_iff, Nat.eqb_neq. intros EQ.
      pose proof (HOLD a x A ltac:(unfold m in X; lia) Y) as HA.
      assert (J : jobof a = jobof b). { apply (runs_same (jobof a) (jobof b) s u t U T EQ); [apply (lr_nonpreemptive _ _ LR r a s A G HA)|apply (lr_nonpreemptive _ _ LR r b s B G); unfold s in *; lia]. }
      destruct (lr_one_request r r a b s A B J HA ltac:(unfold s in *; lia)) as [_ ->]. unfold m in X. lia.
    - unfold f. apply existsb_exists. exists a. split; [exact A|]. unfold on. rewrite U, Nat.eqb_refl. cbn [andb]. apply andb_true_iff. split; [apply Z.leb_le|apply Z.ltb_lt]; lia. }
  rewrite count_true in C.
  assert (K : forall k, (count (f k) s m <= N.to_nat (longest info k r))%nat).
  { intros k. destruct (Nat.eq_dec (count (f k) s m) 0) as [Z0|NZ]; [lia|]. destruct (count_pos (f k) m s ltac:(lia)) as [x0 [X0 F0]]. destruct (FI k x0 F0) as [a0 [u0 [A0 [U0 [C0 Y0]]]]].
    pose proof (HOLD a0 x0 A0 ltac:(unfold m in X0; lia) Y0) as H0.
    assert (W : forall x, s <= x < s + Z.of_nat m -> f k x = true -> cr_start a0 <= x < cr_end a0).
    { intros x X F. destruct (FI k x F) as [a [u [A [U [CU Y]]]]]. pose proof (HOLD a x A ltac:(unfold m in X; lia) Y) as HA.
      assert (J : jobof a = jobof a0). { apply (runs_same (jobof a) (jobof a0) s u u0 U U0 ltac:(congruence)); [apply (lr_nonpreemptive _ _ LR r a s A G HA)|apply (lr_nonpreemptive _ _ LR r a0 s A0 G H0)]. }
      destruct (lr_one_request r r a a0 s A A0 J HA H0) as [_ ->]. exact Y. }
    destruct (lr_times _ _ LR r a0 A0) as [TA1 TA2]. pose proof (count_window (f k) s m (cr_start a0) (cr_end a0) ltac:(lia) W) as CW. pose proof (count_le_n (f k) (Z.to_nat (cr_end a0 - cr_start a0)) (cr_start a0)) as CL.
    destruct (section_length r a0 A0 G) as [t' [q [T' [Q [R LQ]]]]]. assert (t' = u0) by congruence. subst t'. pose proof (longest_ge k u0 q ltac:(eapply nth_error_In; exact U0) C0 Q) as LG. rewrite R in LG. lia. }
  assert (S : (nsum (fun k => count (f k) s m) (filter (fun k => negb (Nat.eqb k c)) (seq 0 n)) <= N.to_nat (fifo_wait info n c r))%nat).
  { clear C. unfold fifo_wait. induction (filter (fun k => negb (Nat.eqb k c)) (seq 0 n)) as [|k l IH]; cbn [nsum fold_right map]; [lia|]. fold (nsum (fun k => count (f k) s m) l). specialize (K k). lia. }
  unfold m in *. lia.
Qed.

(** the requests of a job *)
Lemma spin_time i k t a m : nth_error info i = Some t ->
  (N.of_nat (count (fun x => runs E info (i, k) x && spins E info (i, k) x) a m) <=
   fold_right N.add 0 (map (fun q => q_num q * fifo_wait info n (ti_cluster t) (q_res q)) (filter (fun q => globalb info (q_res q)) (ti_requests t))))%N.
Proof.
  intros T. set (gs := filter (fun q => globalb info (q_res q)) (ti_requests t)).
  set (f := fun (q : reqspec) x => existsb (fun c => is_job i k c && (cr_issue c <=? x) && (x <? cr_start c)) (x_tr E (q_res q))).
  assert (C : (count (fun x => runs E info (i, k) x && spins E info (i, k) x) a m <= nsum (fun q => count (f q) a m) gs)%nat).
  { apply count_cover. intros x X S. apply andb_true_iff in S. destruct S as [_ S]. unfold spins in S. apply existsb_exists in S. destruct S as [r [R S]]. pose proof S as S'. apply existsb_exists in S. destruct S as [c [HC S]].
    rewrite !andb_true_iff, Z.leb_le, Z.ltb_lt in S. destruct S as [[S1 S2] S3]. cbn [fst snd] in S1. apply (is_job_iff (i, k)) in S1. destruct (lr_spec _ _ LR r c HC) as [t' [q [T' [Q [RQ _]]]]].
    assert (cr_task c = i) by (unfold jobof in S1; congruence). assert (t' = t) by congruence. subst t'. exists q. split.
    - apply filter_In. split; [exact Q|]. apply globalb_spec. rewrite RQ. destruct (global_dec info r) as [G|G]; [exact G|]. rewrite (lr_local _ _ LR r c HC G) in S3. lia.
    - unfold f. rewrite RQ. exact S'. }
  assert (K : forall q, In q gs -> (count (f q) a m <= N.to_nat (q_num q * fifo_wait info n (ti_cluster t) (q_res q)))%nat).
  { intros q Q. apply filter_In in Q. destruct Q as [Q1 Q2]. apply globalb_spec in Q2. set (r := q_res q) in *.
    set (cs := filter (is_job i k) (x_tr E r)).
    assert (C2 : (count (f q) a m <= nsum (fun c => count (fun x => (cr_issue c <=? x)%Z && (x <? cr_start c)%Z) a m) cs)%nat).
    { apply count_cover. intros x X F. unfold f in F. fold r in F. apply existsb_exists in F. destruct F as [c [HC F]]. rewrite !andb_true_iff in F. destruct F as [[F1 F2] F3]. exists c. split; [apply filter_In; auto|]. rewrite F2, F3. reflexivity. }
    assert (C3 : forall c, In c cs -> (count (fun x => (cr_issue c <=? x)%Z && (x <? cr_start c)%Z) a m <= N.to_nat (fifo_wait info n (ti_cluster t) r))%nat).
    { intros c HC. apply filter_In in HC. destruct HC as [HC J]. apply (is_job_iff (i, k)) in J. assert (TC : nth_error info (cr_task c) = Some t) by (unfold jobof in J; congruence).
      pose proof (fifo_wait_bound r c t HC Q2 TC) as W. destruct (lr_times _ _ LR r c HC) as [TA1 TA2].
      pose proof (count_window (fun x => (cr_issue c <=? x) && (x <? cr_start c)) a m (cr_issue c) (cr_start c) ltac:(lia)) as CW.
      specialize (CW ltac:(intros x X F; rewrite andb_true_iff, Z.leb_le, Z.ltb_lt in F; lia)). pose proof (count_le_n (fun x => (cr_issue c <=? x) && (x <? cr_start c)) (Z.to_nat (cr_start c - cr_issue c)) (cr_issue c)). lia. }
    pose proof (lr_number _ _ LR r i k t q T Q1 eq_refl) as NB. fold cs in NB.
    assert (C4 : (nsum (fun c => count (fun x => (cr_issue c <=? x)%Z && (x <? cr_start c)%Z) a m) cs <= length cs * N.to_nat (fifo_wait info n (ti_cluster t) r))%nat).
    { clear -C3. induction cs as [|c cs IH]; cbn; [lia|]. fold (nsum (fun c => count (fun x => (cr_issue c <=? x)%Z && (x <? cr_start c)%Z) a m) cs). specialize (IH (fun x X => C3 x (or_intror X))). specialize (C3 c (or_introl eq_refl)). lia. }
    nia. }
  assert (S : (nsum (fun q => count (f q) a m) gs <= N.to_nat (fold_right N.add 0%N (map (fun q => q_num q * fifo_wait info n (ti_cluster t) (q_res q))%N gs)))%nat).
  { clear -K. induction gs as [|q l IH]; cbn [nsum fold_right map]; [lia|]. fold (nsum (fun q => count (f q) a m) l). specialize (IH (fun x X => K x (or_intror X))). specialize (K q (or_introl eq_refl)). lia. }
  lia.
Qed.

Lemma runs_split j a m : count (runs E info j) a m = (count (works E info j) a m + count (fun x => runs E info j x && spins E info j x) a m)%nat.
Proof.
  revert a. induction m as [|m IH]; intros a; cbn [count]; [reflexivity|]. rewrite IH. unfold works. destruct (runs E info j a), (spins E info j a); cbn; lia.
Qed.

(** the work of a job *)
Lemma work_total i k t a m : nth_error info i = Some t -> (1 <= ti_cost t)%N -> (count (works E info (i, k)) a m <= N.to_nat (ti_cost t))%nat.
Proof.
  intros T C1. set (rl := x_rel E i k). set (cm := x_comp E i k).
  assert (W : forall x, a <= x < a + Z.of_nat m -> works E info (i, k) x = true -> rl <= x < cm).
  { intros x _ X. unfold works in X. apply andb_true_iff in X. apply (runs_pending (i, k) x), X. }
  destruct (Z.le_gt_cases cm rl) as [L|L].
  - rewrite count_false; [lia|]. intros x X. destruct (works E info (i, k) x) eqn:Y; [|reflexivity]. specialize (W x X Y). lia.
  - pose proof (count_window _ a m rl cm ltac:(lia) W) as CW. replace (Z.to_nat (cm - rl)) with (Z.to_nat (cm - 1 - rl) + 1)%nat in CW by lia. rewrite count_app in CW.
    pose proof (count_le_n (works E info (i, k)) 1 (rl + Z.of_nat (Z.to_nat (cm - 1 - rl)))) as C. pose proof (lr_work _ _ LR i k t (cm - 1) T ltac:(unfold pending; cbn [fst snd]; fold rl cm; lia)) as LW. fold rl in LW. lia.
Qed.

Lemma runs_total i k t a m : nth_error info i = Some t -> (1 <= ti_cost t)%N -> (N.of_nat (count (runs E info (i, k)) a m) <= inflated info n t)%N.
Proof. intros T C1. rewrite runs_split. pose proof (work_total i k t a m T C1). pose proof (spin_time i k t a m T). unfold inflated. lia. Qed.

(** a job that is pending at [u] has not done all its work *)
Lemma runs_before i k t u a m : nth_error info i = Some t -> pending E (i, k) u -> a + Z.of_nat m <= u -> (N.of_nat (count (runs E info (i, k)) a m) < inflated info n t)%N.
Proof.
  intros T P A. rewrite runs_split. pose proof (spin_time i k t a m T) as S. pose proof (lr_work _ _ LR i k t u T P) as W.
  assert (X : (count (works E info (i, k)) a m <= count (works E info (i, k)) (x_rel E i k) (Z.to_nat (u - x_rel E i k)))%nat).
  { apply count_window; [apply P|]. intros x X Y. unfold works in Y. apply andb_true_iff in Y. destruct Y as [Y _]. apply runs_pending in Y. unfold pending in Y. cbn [fst snd] in Y. lia. }
  unfold inflated. lia.
Qed.
End Rules.
