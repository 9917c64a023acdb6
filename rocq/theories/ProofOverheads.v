(** Lemmas for C25 and C26. *)
From Coq Require Import ZArith QArith Qround Lqa List Bool Lia.
From Verif Require Import Base ModelTasks ModelOverheads SpecOverheads ProofPwl.
Import ListNotations.
Open Scope Q_scope.

Lemma qmin_l : forall a b, qmin a b <= a.
Proof. intros a b. unfold qmin. destruct (Qle_bool a b) eqn:E; [apply Qle_refl|apply qle_bool_false in E; lra]. Qed.
Lemma qmin_r : forall a b, qmin a b <= b.
Proof. intros a b. unfold qmin. destruct (Qle_bool a b) eqn:E; [apply Qle_bool_iff; assumption|apply Qle_refl]. Qed.
Lemma qmin_glb : forall a b c, c <= a -> c <= b -> c <= qmin a b.
Proof. intros a b c H1 H2. unfold qmin. destruct (Qle_bool a b); assumption. Qed.
Lemma qmin_lt : forall a b c, c < a -> c < b -> c < qmin a b.
Proof. intros a b c H1 H2. unfold qmin. destruct (Qle_bool a b); assumption. Qed.

Lemma div_mono : forall a b u v, 0 <= a -> a <= b -> 0 < v -> v <= u -> a / u <= b / v.
Proof.
  intros a b u v H1 H2 H3 H4. apply Qle_shift_div_r; [lra|]. apply Qle_trans with (b / v * v).
  - setoid_replace (b / v * v) with b by (field; lra). assumption.
  - rewrite !(Qmult_comm (b / v)). apply Qmult_le_compat_r; [assumption|]. apply Qle_shift_div_l; [assumption|]. lra.
Qed.
Lemma div_nonneg : forall a u, 0 <= a -> 0 < u -> 0 <= a / u.
Proof. intros a u H1 H2. apply Qle_shift_div_l; [assumption|]. lra. Qed.
Lemma div_le1 : forall a u, 0 < u -> (a / u <= 1 <-> a <= u).
Proof.
  intros a u H. split; intros H1.
  - setoid_replace a with (a / u * u) by (field; lra). apply Qle_trans with (1 * u); [apply Qmult_le_compat_r; lra|lra].
  - apply Qle_shift_div_r; [assumption|lra].
Qed.

Lemma F2_impl : forall A B (P R : A -> B -> Prop) l l', (forall a b, P a b -> R a b) -> Forall2 P l l' -> Forall2 R l l'.
Proof. intros A B P R l l' H H2. induction H2; constructor; auto. Qed.

Lemma nodup_app_l : forall A (l l' : list A), NoDup (l ++ l') -> NoDup l.
Proof.
  induction l as [|a l IH]; intros l' H; [constructor|]. cbn in H. inversion H as [|x y N1 N2]; subst. constructor; [|eapply IH; exact N2].
  intros C. apply N1. apply in_or_app. left. assumption.
Qed.

(** ** Sequential updates *)
Lemma charge_all_done : forall A B (f : A -> charged B) ts ts', charge_all f ts = Done ts' -> Forall2 (fun t t' => f t = Done t') ts ts'.
Proof.
  intros A B f. induction ts as [|t ts IH]; intros ts' H; cbn in H; [injection H as <-; constructor|].
  destruct (f t) eqn:E; try discriminate. destruct (charge_all f ts) eqn:F; try discriminate. injection H as <-. constructor; [assumption|]. apply IH. reflexivity.
Qed.
Lemma charge_all_intro : forall A B (f : A -> charged B) ts ts', Forall2 (fun t t' => f t = Done t') ts ts' -> charge_all f ts = Done ts'.
Proof. intros A B f ts ts' H. induction H; cbn; [reflexivity|]. rewrite H, IHForall2. reflexivity. Qed.

Lemma check_gt_done : forall A c p d (t t' : A), check_gt c p d t = Done t' -> t' = t /\ ~ qmin p d == 0 /\ c / qmin p d <= 1.
Proof.
  intros A c p d t t' H. unfold check_gt, odensity in H. destruct (Qeq_bool (qmin p d) 0) eqn:E; [discriminate|].
  destruct (Qle_bool (c / qmin p d) 1) eqn:F; cbn [negb] in H; [|discriminate]. injection H as <-. split; [reflexivity|]. split.
  - intros C. apply Qeq_bool_iff in C. congruence.
  - apply Qle_bool_iff. assumption.
Qed.
Lemma check_gt_fits : forall A c p d (t t' : A), check_gt c p d t = Done t' -> 0 < p -> 0 < d -> fits c p d.
Proof.
  intros A c p d t t' H Hp Hd. apply check_gt_done in H. destruct H as [_ [_ H]].
  apply (proj1 (div_le1 _ _ (qmin_lt _ _ _ Hp Hd))) in H. split; eapply Qle_trans; try exact H; [apply qmin_l|apply qmin_r].
Qed.
Lemma check_gt_intro : forall A c p d (t : A), 0 < p -> 0 < d -> fits c p d -> check_gt c p d t = Done t.
Proof.
  intros A c p d t Hp Hd [H1 H2]. unfold check_gt, odensity. assert (M : 0 < qmin p d) by (apply qmin_lt; assumption).
  destruct (Qeq_bool (qmin p d) 0) eqn:E; [apply Qeq_bool_iff in E; lra|].
  assert (F : c / qmin p d <= 1) by (apply div_le1; [assumption|apply qmin_glb; assumption]). apply Qle_bool_iff in F. rewrite F. reflexivity.
Qed.
Lemma check_gt_reject : forall A c p d (t : A), 0 < p -> 0 < d -> ~ fits c p d -> check_gt c p d t = Rejected.
Proof.
  intros A c p d t Hp Hd H. unfold check_gt, odensity. assert (M : 0 < qmin p d) by (apply qmin_lt; assumption).
  destruct (Qeq_bool (qmin p d) 0) eqn:E; [apply Qeq_bool_iff in E; lra|].
  destruct (Qle_bool (c / qmin p d) 1) eqn:F; [|reflexivity]. exfalso. apply H. apply Qle_bool_iff in F. apply (proj1 (div_le1 _ _ M)) in F.
  split; eapply Qle_trans; try exact F; [apply qmin_l|apply qmin_r].
Qed.

(** ** jlfp.py *)
Definition nonneg_overheads (o : overheads) : Prop :=
  0 < quantum_length o /\
  (forall n, 0 <= n -> 0 <= ipi_latency o n /\ 0 <= schedule o n /\ 0 <= release o n /\ 0 <= ctx_switch o n /\ 0 <= tick o n /\ 0 <= release_latency o n) /\
  (forall n, 0 <= n -> 0 <= lock o n /\ 0 <= unlock o n /\ 0 <= read_lock o n /\ 0 <= read_unlock o n /\ 0 <= syscall_in o n /\ 0 <= syscall_out o n) /\
  (forall w, 0 <= w -> 0 <= cache_affinity_loss o w /\ 0 <= initial_cache_load o w).

Lemma ntasks_nonneg : forall A (ts : list A), 0 <= ntasks ts.
Proof. intros A ts. unfold ntasks. change 0 with (inject_Z 0). rewrite <- Zle_Qle. lia. Qed.

Lemma initial_load_done : forall o ts ts', charge_initial_load (Some o) ts = Done ts' ->
  Forall2 (fun t t' => o_cost t' == o_cost t + initial_cache_load o (o_wss t) /\ 0 <= initial_cache_load o (o_wss t) /\
    o_period t' = o_period t /\ o_deadline t' = o_deadline t /\
    (0 < o_period t' -> 0 < o_deadline t' -> fits (o_cost t') (o_period t') (o_deadline t'))) ts ts'.
Proof.
  intros o ts ts' H. apply charge_all_done in H. induction H as [|t t' ts ts' H _ IH]; constructor; [|assumption]. cbv beta zeta in H.
  destruct (Qle_bool 0 (initial_cache_load o (o_wss t))) eqn:E; [|discriminate].
  pose proof (check_gt_fits _ _ _ _ _ _ H) as F. apply check_gt_done in H. destruct H as [-> _]. cbn [o_cost o_period o_deadline].
  split; [reflexivity|]. split; [apply Qle_bool_iff; assumption|]. split; [reflexivity|]. split; [reflexivity|assumption].
Qed.

(** interrupt utilization *)
Definition rel_util (rel : Q) (ts : list otask) : Q := qsum (map (fun t => rel / o_period t) (filter (fun t => negb (o_early t)) ts)).

Lemma sum_urel_some : forall rel ts u, sum_urel rel ts = Some u -> u == rel_util rel ts.
Proof.
  intros rel ts. induction ts as [|t ts IH]; intros u H; cbn in H; [injection H as <-; reflexivity|].
  unfold rel_util in *. cbn [filter]. destruct (o_early t); cbn [negb] in *; [apply IH; assumption|].
  destruct (Qeq_bool (o_period t) 0); [discriminate|]. destruct (sum_urel rel ts) as [v|]; [|discriminate]. injection H as <-.
  cbn [map qsum fold_right]. rewrite (IH v eq_refl). reflexivity.
Qed.
Lemma sum_urel_exists : forall rel ts, Forall (fun t => 0 < o_period t) ts -> exists u, sum_urel rel ts = Some u.
Proof.
  intros rel ts H. induction H as [|t ts Ht _ [u IH]]; [exists 0; reflexivity|]. cbn. destruct (o_early t); [exists u; assumption|].
  destruct (Qeq_bool (o_period t) 0) eqn:E; [apply Qeq_bool_iff in E; lra|]. rewrite IH. eexists. reflexivity.
Qed.
Lemma rel_util_mono : forall r1 r2 ts, 0 <= r1 -> r1 <= r2 -> Forall (fun t => 0 < o_period t) ts -> rel_util r1 ts <= rel_util r2 ts.
Proof.
  intros r1 r2 ts H1 H2 H. induction H as [|t ts Ht _ IH]; [apply Qle_refl|]. unfold rel_util in *. cbn [filter].
  destruct (o_early t); cbn [negb]; [assumption|]. cbn [map qsum fold_right]. apply Qplus_le_compat; [apply div_mono; lra|assumption].
Qed.
Lemma rel_util_nonneg : forall r ts, 0 <= r -> Forall (fun t => 0 < o_period t) ts -> 0 <= rel_util r ts.
Proof.
  intros r ts H1 H. induction H as [|t ts Ht _ IH]; [apply Qle_refl|]. unfold rel_util in *. cbn [filter].
  destruct (o_early t); cbn [negb]; [assumption|]. cbn [map qsum fold_right]. pose proof (div_nonneg r (o_period t) H1 Ht). unfold qsum in IH. lra.
Qed.

(** the fraction of the processor left by interrupts, and the interrupt work of a preemption *)
Definition irq_util (o : overheads) (ded : bool) (ts : list otask) : Q :=
  tick o (ntasks ts) / quantum_length o + (if ded then 0 else rel_util (release o (ntasks ts)) ts).
(** the number of tasks whose releases interrupt *)
Definition irq_releases (ts : list otask) : Q := qsum (map (fun t => if o_early t then 0 else 1) ts).
Definition irq_work (o : overheads) (ded : bool) (ts : list otask) : Q :=
  tick o (ntasks ts) + (if ded then 0 else irq_releases ts * release o (ntasks ts)) + release_latency o (ntasks ts) * irq_util o ded ts.

Lemma n_rel_irq_count : forall ts, n_rel_irq ts == irq_releases ts.
Proof.
  induction ts as [|t ts IH]; [reflexivity|]. unfold n_rel_irq, irq_releases, ntasks in *. cbn [filter map qsum fold_right]. unfold qsum in IH. rewrite <- IH.
  destruct (o_early t); cbn [negb]; [ring|]. cbn [length]. rewrite Nat2Z.inj_succ. unfold Z.succ. rewrite inject_Z_plus. change (inject_Z 1) with 1. ring.
Qed.
Lemma irq_costs_some : forall o ded ts u c, irq_costs o ded ts = Some (u, c) -> u == 1 - irq_util o ded ts /\ ~ u == 0 /\ c == irq_work o ded ts / u.
Proof.
  intros o ded ts u c H. unfold irq_costs in H. destruct (Qeq_bool (quantum_length o) 0); [discriminate|]. unfold irq_util, irq_work, irq_util.
  destruct ded.
  - destruct (Qeq_bool (1 - tick o (ntasks ts) / quantum_length o - 0) 0) eqn:E; [discriminate|]. injection H as <- <-.
    assert (N : ~ 1 - tick o (ntasks ts) / quantum_length o - 0 == 0) by (intros C; apply Qeq_bool_iff in C; congruence).
    split; [ring|]. split; [assumption|]. apply Qmult_comp; [ring|reflexivity].
  - destruct (sum_urel (release o (ntasks ts)) ts) as [v|] eqn:S; [|discriminate]. apply sum_urel_some in S.
    destruct (Qeq_bool (1 - tick o (ntasks ts) / quantum_length o - v) 0) eqn:E; [discriminate|]. injection H as <- <-.
    assert (N : ~ 1 - tick o (ntasks ts) / quantum_length o - v == 0) by (intros C; apply Qeq_bool_iff in C; congruence).
    split; [rewrite S; ring|]. split; [assumption|]. apply Qmult_comp; [rewrite S, n_rel_irq_count; ring|reflexivity].
Qed.
Lemma irq_costs_exists : forall o ded ts, 0 < quantum_length o -> Forall (fun t => 0 < o_period t) ts -> ~ irq_util o ded ts == 1 ->
  exists u c, irq_costs o ded ts = Some (u, c).
Proof.
  intros o ded ts Hq Ht Hn. unfold irq_costs. destruct (Qeq_bool (quantum_length o) 0) eqn:Q; [apply Qeq_bool_iff in Q; lra|].
  unfold irq_util in Hn. destruct ded.
  - destruct (Qeq_bool (1 - tick o (ntasks ts) / quantum_length o - 0) 0) eqn:E; [|eexists; eexists; reflexivity].
    apply Qeq_bool_iff in E. exfalso. apply Hn. lra.
  - destruct (sum_urel_exists (release o (ntasks ts)) ts Ht) as [v S]. rewrite S. apply sum_urel_some in S.
    destruct (Qeq_bool (1 - tick o (ntasks ts) / quantum_length o - v) 0) eqn:E; [|eexists; eexists; reflexivity].
    apply Qeq_bool_iff in E. exfalso. apply Hn. rewrite <- S. lra.
Qed.

(** what a task is charged *)
Definition jlfp_fixed (o : overheads) (num_cpus : Z) (ded : bool) (n : Q) : Q :=
  if ded then ipi_latency o n + release o n else if (1 <? num_cpus)%Z then ipi_latency o n else 0.

Definition jlfp_cost (o : overheads) (num_cpus : Z) (ded : bool) (ts : list otask) (i : nat) (t : otask) : Q :=
  let n := ntasks ts in
  (o_cost t + 2 * (schedule o n + ctx_switch o n) + cpmd_of o ts i + 2 * irq_work o ded ts) / (1 - irq_util o ded ts) + jlfp_fixed o num_cpus ded n.

Definition jlfp_charged (o : overheads) (num_cpus : Z) (ded : bool) (ts : list otask) (p : nat * otask) (t' : otask) : Prop :=
  let '(i, t) := p in
  o_cost t' == jlfp_cost o num_cpus ded ts i t /\
  o_period t' == o_period t - release_latency o (ntasks ts) /\ o_deadline t' == o_deadline t - release_latency o (ntasks ts) /\
  o_wss t' = o_wss t /\ o_early t' = o_early t /\ o_jitter t' = o_jitter t.

Lemma jlfp_done : forall o m ded ts ts', jlfp_charge (Some o) m ded ts = Done ts' ->
  irq_util o ded ts < 1 /\
  Forall2 (fun p t' => jlfp_charged o m ded ts p t' /\ (0 < o_period t' -> 0 < o_deadline t' -> fits (o_cost t') (o_period t') (o_deadline t')))
    (combine (seq 0 (length ts)) ts) ts'.
Proof.
  intros o m ded ts ts' H. unfold jlfp_charge in H. destruct (irq_costs o ded ts) as [[u c]|] eqn:E; [|discriminate].
  apply irq_costs_some in E. destruct E as [E1 [E2 E3]]. destruct (Qle_bool u 0) eqn:U; [discriminate|]. apply qle_bool_false in U.
  split; [lra|]. apply charge_all_done in H. eapply F2_impl; [|exact H]. clear H ts'. intros [i t] t' H. cbv beta zeta in H.
  pose proof (check_gt_fits _ _ _ _ _ _ H) as F. apply check_gt_done in H. destruct H as [-> _]. split; [|exact F].
  cbn [jlfp_charged o_cost o_period o_deadline o_wss o_early o_jitter]. split; [|repeat split; reflexivity].
  unfold jlfp_cost, jlfp_fixed. destruct ded; [|destruct (1 <? m)%Z]; rewrite E3, <- E1; field; lra.
Qed.

Lemma jlfp_intro : forall o m ded ts, 0 < quantum_length o -> Forall (fun t => 0 < o_period t) ts -> irq_util o ded ts < 1 ->
  Forall (fun p => release_latency o (ntasks ts) < o_period (snd p) /\ release_latency o (ntasks ts) < o_deadline (snd p) /\
    fits (jlfp_cost o m ded ts (fst p) (snd p)) (o_period (snd p) - release_latency o (ntasks ts)) (o_deadline (snd p) - release_latency o (ntasks ts)))
    (combine (seq 0 (length ts)) ts) ->
  exists ts', jlfp_charge (Some o) m ded ts = Done ts'.
Proof.
  intros o m ded ts Hq Hp Hu Hf. destruct (irq_costs_exists o ded ts Hq Hp ltac:(lra)) as [u [c E]].
  unfold jlfp_charge. rewrite E. apply irq_costs_some in E. destruct E as [E1 [E2 E3]].
  destruct (Qle_bool u 0) eqn:U; [apply Qle_bool_iff in U; lra|]. apply qle_bool_false in U.
  match goal with |- exists _, charge_all ?f ?l = _ => set (F := f) end.
  induction Hf as [|[i t] l [H1 [H2 [H3 H4]]] _ [r IH]]; [exists []; reflexivity|]. cbn [fst snd] in *. cbn [charge_all].
  assert (D : exists t', F (i, t) = Done t').
  { unfold F. eexists. apply check_gt_intro; [lra|lra|]. unfold jlfp_cost, jlfp_fixed in H3, H4.
    set (A := o_cost t + 2 * (schedule o (ntasks ts) + ctx_switch o (ntasks ts)) + cpmd_of o ts i) in *.
    assert (Eq : forall x, (o_cost t + (2 * (schedule o (ntasks ts) + ctx_switch o (ntasks ts)) + cpmd_of o ts i)) / u + (2 * c + x) == (A + 2 * irq_work o ded ts) / (1 - irq_util o ded ts) + x).
    { intros x. rewrite E3, <- E1. unfold A. field. assumption. }
    unfold fits. destruct ded; [|destruct (1 <? m)%Z].
    - setoid_replace (2 * c + ipi_latency o (ntasks ts) + release o (ntasks ts)) with (2 * c + (ipi_latency o (ntasks ts) + release o (ntasks ts))) by ring.
      split; rewrite Eq; assumption.
    - split; rewrite Eq; assumption.
    - setoid_replace (2 * c) with (2 * c + 0) by ring. split; rewrite Eq; assumption. }
  destruct D as [t' D]. rewrite D, IH. eexists. reflexivity.
Qed.

Lemma combine_seq_split : forall A (l : list A) k i t, In (i, t) (combine (seq k (length l)) l) -> (k <= i)%nat /\ nth_error l (i - k) = Some t.
Proof.
  induction l as [|a l IH]; intros k i t H; [destruct H|]. cbn [length seq combine] in H. destruct H as [H|H].
  - injection H as <- <-. split; [lia|]. rewrite Nat.sub_diag. reflexivity.
  - apply IH in H. destruct H as [H1 H2]. split; [lia|]. replace (i - k)%nat with (S (i - S k)) by lia. exact H2.
Qed.
Lemma combine_seq_in : forall A (l : list A) k i t, nth_error l i = Some t -> In (k + i, t)%nat (combine (seq k (length l)) l).
Proof.
  induction l as [|a l IH]; intros k i t H; [destruct i; discriminate|]. cbn [length seq combine]. destruct i as [|i]; cbn in H.
  - injection H as ->. left. f_equal. lia.
  - right. replace (k + S i)%nat with (S k + i)%nat by lia. apply IH. assumption.
Qed.

(** ** The two largest working sets *)
Definition bestInv (P best : list (nat * otask)) : Prop :=
  match best with
  | [] => P = []
  | [a] => P = [a]
  | [a; b] => In a P /\ In b P /\ fst a <> fst b /\ o_wss (snd b) <= o_wss (snd a) /\ (forall p, In p P -> fst p <> fst a -> o_wss (snd p) <= o_wss (snd b))
  | _ => False
  end.

Lemma best_step : forall P best p, bestInv P best -> NoDup (map fst (P ++ [p])) -> bestInv (P ++ [p]) (firstn 2 (insert_wss p best)).
Proof.
  intros P best p H Hd. destruct best as [|a [|b [|c best]]]; [| | |destruct H].
  - cbn in H. subst P. reflexivity.
  - cbn in H. subst P. cbn [app map] in Hd. inversion Hd as [|x l N1 N2]; subst. cbn in N1.
    cbn [insert_wss]. destruct (Qle_bool (o_wss (snd p)) (o_wss (snd a))) eqn:E; cbn [negb firstn].
    + apply Qle_bool_iff in E. cbn [bestInv app]. split; [left; reflexivity|]. split; [right; left; reflexivity|]. split; [intros C; apply N1; auto|].
      split; [assumption|]. intros q [<-|[<-|[]]] Hq; [congruence|apply Qle_refl].
    + apply qle_bool_false in E. cbn [bestInv app]. split; [right; left; reflexivity|]. split; [left; reflexivity|]. split; [intros C; apply N1; auto|].
      split; [lra|]. intros q [<-|[<-|[]]] Hq; [apply Qle_refl|congruence].
  - destruct H as [Ia [Ib [Nab [Lab Hm]]]].
    assert (Np : forall q, In q P -> fst q <> fst p).
    { intros q Hq C. rewrite map_app in Hd. cbn in Hd. apply NoDup_remove_2 in Hd. apply Hd. rewrite app_nil_r, <- C. apply in_map. assumption. }
    cbn [insert_wss]. destruct (Qle_bool (o_wss (snd p)) (o_wss (snd a))) eqn:E; cbn [negb].
    + apply Qle_bool_iff in E. destruct (Qle_bool (o_wss (snd p)) (o_wss (snd b))) eqn:F; cbn [negb firstn bestInv].
      * apply Qle_bool_iff in F. rewrite !in_app_iff. split; [auto|]. split; [auto|]. split; [assumption|]. split; [assumption|].
        intros q Hq Hn. apply in_app_iff in Hq. destruct Hq as [Hq|[<-|[]]]; [apply Hm; assumption|assumption].
      * apply qle_bool_false in F. rewrite !in_app_iff. split; [auto|]. split; [right; left; reflexivity|]. split; [apply Np; assumption|].
        split; [assumption|]. intros q Hq Hn. apply in_app_iff in Hq. destruct Hq as [Hq|[<-|[]]]; [|apply Qle_refl].
        eapply Qle_trans; [apply Hm; assumption|lra].
    + apply qle_bool_false in E. cbn [firstn bestInv]. rewrite !in_app_iff. split; [right; left; reflexivity|]. split; [auto|].
      split; [intros C; apply (Np a Ia); congruence|]. split; [lra|]. intros q Hq Hn. apply in_app_iff in Hq.
      destruct Hq as [Hq|[<-|[]]]; [|congruence]. destruct (Nat.eq_dec (fst q) (fst a)) as [D|D]; [|eapply Qle_trans; [apply Hm; assumption|assumption]].
      assert (X : q = a); [|rewrite X; apply Qle_refl].
      rewrite map_app in Hd. apply nodup_app_l in Hd. clear - Hd Hq Ia D. induction P as [|z P IH]; [destruct Hq|].
      cbn in Hd. inversion Hd as [|y l N1 N2]; subst. destruct Hq as [->|Hq], Ia as [Ia|Ia]; try congruence.
      * exfalso. apply N1. rewrite D. apply in_map. assumption.
      * subst z. exfalso. apply N1. rewrite <- D. apply in_map. assumption.
      * apply IH; assumption.
Qed.

Lemma best_fold : forall l P best, bestInv P best -> NoDup (map fst (P ++ l)) ->
  bestInv (P ++ l) (fold_left (fun best p => firstn 2 (insert_wss p best)) l best).
Proof.
  induction l as [|p l IH]; intros P best H Hd; cbn [fold_left]; [rewrite app_nil_r; assumption|].
  replace (P ++ p :: l) with ((P ++ [p]) ++ l) in * by (rewrite <- app_assoc; reflexivity). apply IH; [|assumption].
  apply best_step; [assumption|]. rewrite map_app in Hd. apply nodup_app_l in Hd. assumption.
Qed.

Lemma nlargest2_spec : forall ts, bestInv (combine (seq 0 (length ts)) ts) (nlargest2 ts).
Proof.
  intros ts. unfold nlargest2. set (l := combine (seq 0 (length ts)) ts).
  assert (H : bestInv l (fold_left (fun best p => firstn 2 (insert_wss p best)) l [])).
  { apply (best_fold l [] []); [reflexivity|]. cbn [app]. unfold l.
    assert (G : forall (ts : list otask) k, map fst (combine (seq k (length ts)) ts) = seq k (length ts)) by (induction ts0; intros; cbn; [reflexivity|f_equal; apply IHts0]).
    rewrite G. apply seq_NoDup. }
  destruct (fold_left (fun best p => firstn 2 (insert_wss p best)) l []) as [|a [|b [|c r]]]; [exact H|exact H|exact H|destruct H].
Qed.

Definition monotone (f : Q -> Q) : Prop := forall x y, x <= y -> f x <= f y.

(** the charge covers the loss of every other task, and is caused by one *)
Lemma cpmd_covers : forall o ts i j t, monotone (cache_affinity_loss o) -> nth_error ts j = Some t -> i <> j -> (i < length ts)%nat -> cache_affinity_loss o (o_wss t) <= cpmd_of o ts i.
Proof.
  intros o ts i j t Hm Hj Hn Hi. unfold cpmd_of. pose proof (nlargest2_spec ts) as S.
  pose proof (combine_seq_in _ ts 0 j t Hj) as Ij. cbn [Nat.add] in Ij.
  destruct (nlargest2 ts) as [|[ja a] [|[jb b] [|c r]]]; cbn [bestInv] in S; [| | |destruct S].
  - rewrite S in Ij. destruct Ij.
  - rewrite S in Ij. destruct Ij as [Ij|[]]. injection Ij as -> ->. destruct (Nat.eqb_spec i j); [contradiction|]. apply Qle_refl.
  - destruct S as [Ia [Ib [Nab [Lab Hmax]]]]. cbn [fst snd] in *. specialize (Hmax (j, t) Ij). cbn [fst snd] in Hmax.
    destruct (Nat.eqb_spec i ja) as [E|E]; cbn [negb].
    + apply Hm. apply Hmax. congruence.
    + destruct (Nat.eq_dec j ja) as [D|D].
      * subst ja. apply combine_seq_split in Ia. apply combine_seq_split in Ij. destruct Ia as [_ Ia], Ij as [_ Ij].
        assert (X : t = a) by congruence. rewrite X. apply Qle_refl.
      * apply Hm. eapply Qle_trans; [apply Hmax; assumption|assumption].
Qed.

Lemma cpmd_caused : forall o ts i, (i < length ts)%nat ->
  (length ts = 1%nat /\ cpmd_of o ts i = 0) \/ exists j t, j <> i /\ nth_error ts j = Some t /\ cpmd_of o ts i = cache_affinity_loss o (o_wss t).
Proof.
  intros o ts i Hi. unfold cpmd_of. pose proof (nlargest2_spec ts) as S.
  destruct (nlargest2 ts) as [|[ja a] [|[jb b] [|c r]]]; cbn [bestInv] in S; [| | |destruct S].
  - destruct ts; [cbn in Hi; lia|discriminate].
  - destruct ts as [|t [|t' ts]]; [cbn in Hi; lia| |discriminate]. cbn in S. injection S as <- <-. destruct i; [|cbn in Hi; lia]. left. split; reflexivity.
  - right. destruct S as [Ia [Ib [Nab _]]]. cbn [fst snd] in *. apply combine_seq_split in Ia. apply combine_seq_split in Ib. destruct Ia as [_ Ia], Ib as [_ Ib].
    rewrite Nat.sub_0_r in *. destruct (Nat.eqb_spec i ja) as [E|E]; cbn [negb].
    + exists jb, b. split; [congruence|]. split; [assumption|reflexivity].
    + exists ja, a. split; [congruence|]. split; [assumption|reflexivity].
Qed.

Lemma nlargest2_in : forall ts i a, In (i, a) (nlargest2 ts) -> In a ts.
Proof.
  intros ts i a H. pose proof (nlargest2_spec ts) as S. assert (G : In (i, a) (combine (seq 0 (length ts)) ts)).
  { destruct (nlargest2 ts) as [|p [|q [|c r]]]; cbn [bestInv] in S; [destruct H|rewrite S; assumption| |destruct S].
    destruct S as [S1 [S2 _]]. destruct H as [<-|[<-|[]]]; assumption. }
  apply combine_seq_split in G. destruct G as [_ G]. eapply nth_error_In; eassumption.
Qed.
Lemma cpmd_mono : forall o1 o2 ts i, (forall t, In t ts -> 0 <= cache_affinity_loss o1 (o_wss t) <= cache_affinity_loss o2 (o_wss t)) ->
  0 <= cpmd_of o1 ts i <= cpmd_of o2 ts i.
Proof.
  intros o1 o2 ts i H. pose proof (nlargest2_in ts) as N. unfold cpmd_of. destruct (nlargest2 ts) as [|[ja a] r]; [split; apply Qle_refl|].
  destruct (negb (Nat.eqb i ja)); [apply H, (N ja a); left; reflexivity|]. destruct r as [|[jb b] r]; [split; apply Qle_refl|apply H, (N jb b)]. right. left. reflexivity.
Qed.
Lemma cpmd_nonneg : forall o ts i, (forall t, In t ts -> 0 <= cache_affinity_loss o (o_wss t)) -> 0 <= cpmd_of o ts i.
Proof. intros o ts i H. apply (cpmd_mono o o). intros t Ht. split; [apply H; assumption|apply Qle_refl]. Qed.

Lemma irq_releases_nonneg : forall ts, 0 <= irq_releases ts.
Proof. intros. rewrite <- n_rel_irq_count. unfold n_rel_irq, ntasks. change 0 with (inject_Z 0). rewrite <- Zle_Qle. lia. Qed.

Lemma irq_util_nonneg : forall o ded ts, nonneg_overheads o -> Forall (fun t => 0 < o_period t) ts -> 0 <= irq_util o ded ts.
Proof.
  intros o ded ts [Hq [H _]] Ht. unfold irq_util. specialize (H (ntasks ts) (ntasks_nonneg _ ts)). destruct H as [_ [_ [H1 [_ [H2 _]]]]].
  pose proof (div_nonneg _ _ H2 Hq). destruct ded; [lra|]. pose proof (rel_util_nonneg _ _ H1 Ht). lra.
Qed.
Lemma irq_work_nonneg : forall o ded ts, nonneg_overheads o -> Forall (fun t => 0 < o_period t) ts -> 0 <= irq_work o ded ts.
Proof.
  intros o ded ts Ho Ht. pose proof (irq_util_nonneg o ded ts Ho Ht) as U. destruct Ho as [Hq [H _]]. unfold irq_work. specialize (H (ntasks ts) (ntasks_nonneg _ ts)).
  destruct H as [_ [_ [H1 [_ [H2 H3]]]]]. assert (0 <= release_latency o (ntasks ts) * irq_util o ded ts) by (apply Qmult_le_0_compat; assumption).
  destruct ded; [lra|]. assert (0 <= irq_releases ts * release o (ntasks ts)) by (apply Qmult_le_0_compat; [apply irq_releases_nonneg|assumption]). lra.
Qed.

Lemma Forall2_combine_seq : forall A B (R : nat -> A -> B -> Prop) (l : list A) (l' : list B) k,
  Forall2 (fun p b => R (fst p) (snd p) b) (combine (seq k (length l)) l) l' -> Forall2 (fun a b => exists i, R i a b) l l'.
Proof.
  intros A B R l. induction l as [|a l IH]; intros l' k H; cbn in H; inversion H as [|p b x y H1 H2]; subst; constructor.
  - exists k. exact H1.
  - eapply IH. exact H2.
Qed.

Lemma jlfp_harder : forall o m ded ts ts', nonneg_overheads o -> Forall (fun t => 0 < o_period t /\ 0 <= o_cost t /\ 0 <= o_wss t) ts ->
  jlfp_charge (Some o) m ded ts = Done ts' ->
  Forall2 (fun t t' => harder (o_cost t) (o_period t) (o_deadline t) (o_cost t') (o_period t') (o_deadline t') /\
    (0 < o_period t' -> 0 < o_deadline t' -> fits (o_cost t') (o_period t') (o_deadline t'))) ts ts'.
Proof.
  intros o m ded ts ts' Ho Ht H. assert (Hp : Forall (fun t => 0 < o_period t) ts) by (eapply Forall_impl; [|exact Ht]; cbv beta; intros ? HH; exact (proj1 HH)).
  assert (Hw : forall t, In t ts -> 0 <= o_wss t) by (intros s Hs; rewrite Forall_forall in Ht; apply Ht; assumption).
  apply jlfp_done in H. destruct H as [Hu H].
  pose proof (irq_util_nonneg o ded ts Ho Hp) as U0. pose proof (irq_work_nonneg o ded ts Ho Hp) as W0. destruct Ho as [Hq [Hn [_ Hc]]].
  destruct (Hn (ntasks ts) (ntasks_nonneg _ ts)) as [N1 [N2 [N3 [N4 [N5 N6]]]]].
  assert (G : Forall2 (fun (p : nat * otask) t' => 0 <= o_cost (snd p) -> harder (o_cost (snd p)) (o_period (snd p)) (o_deadline (snd p)) (o_cost t') (o_period t') (o_deadline t') /\
    (0 < o_period t' -> 0 < o_deadline t' -> fits (o_cost t') (o_period t') (o_deadline t'))) (combine (seq 0 (length ts)) ts) ts').
  { eapply F2_impl; [|exact H]. intros [i t] t' [[C1 [C2 [C3 _]]] C4] C0. cbn [snd] in *. split; [|assumption]. unfold harder. rewrite C1, C2, C3.
    split; [|lra]. unfold jlfp_cost. pose proof (cpmd_nonneg o ts i (fun t Hin => proj1 (Hc _ (Hw t Hin)))) as P.
    assert (F0 : 0 <= jlfp_fixed o m ded (ntasks ts)) by (unfold jlfp_fixed; destruct ded; [|destruct (1 <? m)%Z]; lra).
    set (X := o_cost t + 2 * (schedule o (ntasks ts) + ctx_switch o (ntasks ts)) + cpmd_of o ts i + 2 * irq_work o ded ts).
    assert (o_cost t / 1 <= X / (1 - irq_util o ded ts)) by (apply div_mono; unfold X; lra).
    setoid_replace (o_cost t / 1) with (o_cost t) in H0 by field. lra. }
  apply (Forall2_combine_seq _ _ (fun _ t t' => 0 <= o_cost t -> harder (o_cost t) (o_period t) (o_deadline t) (o_cost t') (o_period t') (o_deadline t') /\
    (0 < o_period t' -> 0 < o_deadline t' -> fits (o_cost t') (o_period t') (o_deadline t')))) in G.
  clear - G Ht. induction G as [|t t' ts ts' [_ H] G IH]; constructor.
  - inversion Ht; subst. apply H. tauto.
  - apply IH. inversion Ht; assumption.
Qed.

(** ** Larger overheads *)
Definition larger_overheads (o1 o2 : overheads) : Prop :=
  quantum_length o1 == quantum_length o2 /\
  (forall n, 0 <= n -> ipi_latency o1 n <= ipi_latency o2 n /\ schedule o1 n <= schedule o2 n /\ release o1 n <= release o2 n /\
             ctx_switch o1 n <= ctx_switch o2 n /\ tick o1 n <= tick o2 n /\ release_latency o1 n <= release_latency o2 n) /\
  (forall w, 0 <= w -> cache_affinity_loss o1 w <= cache_affinity_loss o2 w).

Lemma irq_util_mono : forall o1 o2 ded ts, nonneg_overheads o1 -> larger_overheads o1 o2 -> Forall (fun t => 0 < o_period t) ts ->
  irq_util o1 ded ts <= irq_util o2 ded ts.
Proof.
  intros o1 o2 ded ts [Hq [H _]] [Eq [L _]] Ht. unfold irq_util. specialize (H (ntasks ts) (ntasks_nonneg _ ts)). specialize (L (ntasks ts) (ntasks_nonneg _ ts)).
  destruct H as [_ [_ [H1 [_ [H2 _]]]]]. destruct L as [_ [_ [L1 [_ [L2 _]]]]].
  assert (tick o1 (ntasks ts) / quantum_length o1 <= tick o2 (ntasks ts) / quantum_length o2) by (apply div_mono; lra).
  destruct ded; [lra|]. pose proof (rel_util_mono _ _ ts H1 L1 Ht). lra.
Qed.
Lemma irq_work_mono : forall o1 o2 ded ts, nonneg_overheads o1 -> larger_overheads o1 o2 -> Forall (fun t => 0 < o_period t) ts ->
  irq_work o1 ded ts <= irq_work o2 ded ts.
Proof.
  intros o1 o2 ded ts Ho Hl Ht. pose proof (irq_util_mono o1 o2 ded ts Ho Hl Ht) as U. pose proof (irq_util_nonneg o1 ded ts Ho Ht) as U0.
  destruct Ho as [Hq [H _]]. destruct Hl as [Eq [L _]]. unfold irq_work. specialize (H (ntasks ts) (ntasks_nonneg _ ts)). specialize (L (ntasks ts) (ntasks_nonneg _ ts)).
  destruct H as [_ [_ [H1 [_ [H2 H3]]]]]. destruct L as [_ [_ [L1 [_ [L2 L3]]]]].
  assert (A : release_latency o1 (ntasks ts) * irq_util o1 ded ts <= release_latency o2 (ntasks ts) * irq_util o2 ded ts).
  { apply Qle_trans with (release_latency o2 (ntasks ts) * irq_util o1 ded ts); [apply Qmult_le_compat_r; assumption|].
    rewrite !(Qmult_comm (release_latency o2 _)). apply Qmult_le_compat_r; lra. }
  assert (B : irq_releases ts * release o1 (ntasks ts) <= irq_releases ts * release o2 (ntasks ts)).
  { rewrite !(Qmult_comm (irq_releases ts)). apply Qmult_le_compat_r; [assumption|apply irq_releases_nonneg]. }
  destruct ded; lra.
Qed.

Lemma jlfp_cost_mono : forall o1 o2 m ded ts i t, nonneg_overheads o1 -> larger_overheads o1 o2 -> Forall (fun t => 0 < o_period t) ts ->
  (forall s, In s ts -> 0 <= o_wss s) -> 0 <= o_cost t -> irq_util o2 ded ts < 1 -> jlfp_cost o1 m ded ts i t <= jlfp_cost o2 m ded ts i t.
Proof.
  intros o1 o2 m ded ts i t Ho Hl Ht Hw Hc Hu. pose proof (irq_util_mono o1 o2 ded ts Ho Hl Ht) as U. pose proof (irq_work_mono o1 o2 ded ts Ho Hl Ht) as W.
  pose proof (irq_work_nonneg o1 ded ts Ho Ht) as W0. destruct Ho as [Hq [H [_ Hcm]]]. destruct Hl as [Eq [L Lc]].
  assert (P : 0 <= cpmd_of o1 ts i <= cpmd_of o2 ts i) by (apply cpmd_mono; intros s Hs; split; [apply Hcm|apply Lc]; apply Hw; assumption).
  destruct P as [P0 P].
  unfold jlfp_cost. specialize (H (ntasks ts) (ntasks_nonneg _ ts)). specialize (L (ntasks ts) (ntasks_nonneg _ ts)).
  destruct H as [H0 [H1 [H2 [H3 [H4 H5]]]]]. destruct L as [L0 [L1 [L2 [L3 [L4 L5]]]]].
  apply Qplus_le_compat; [apply div_mono; lra|]. unfold jlfp_fixed. destruct ded; [|destruct (1 <? m)%Z]; lra.
Qed.

Lemma jlfp_mono : forall o1 o2 m ded ts ts2, nonneg_overheads o1 -> larger_overheads o1 o2 -> Forall (fun t => 0 < o_period t /\ 0 <= o_cost t /\ 0 <= o_wss t) ts ->
  Forall (fun t => release_latency o2 (ntasks ts) < o_period t /\ release_latency o2 (ntasks ts) < o_deadline t) ts ->
  jlfp_charge (Some o2) m ded ts = Done ts2 ->
  exists ts1, jlfp_charge (Some o1) m ded ts = Done ts1 /\
  Forall2 (fun t1 t2 => harder (o_cost t1) (o_period t1) (o_deadline t1) (o_cost t2) (o_period t2) (o_deadline t2)) ts1 ts2.
Proof.
  intros o1 o2 m ded ts ts2 Ho Hl Ht Hlat H. assert (Hp : Forall (fun t => 0 < o_period t) ts) by (eapply Forall_impl; [|exact Ht]; cbv beta; intros ? HH; exact (proj1 HH)).
  assert (Hw : forall t, In t ts -> 0 <= o_wss t) by (intros s Hs; rewrite Forall_forall in Ht; apply Ht; assumption).
  apply jlfp_done in H. destruct H as [Hu H]. pose proof (irq_util_mono o1 o2 ded ts Ho Hl Hp) as U.
  assert (LL : release_latency o1 (ntasks ts) <= release_latency o2 (ntasks ts)) by (destruct Hl as [_ [L _]]; apply L; apply ntasks_nonneg).
  assert (All : Forall (fun p : nat * otask => In (snd p) ts) (combine (seq 0 (length ts)) ts)).
  { apply Forall_forall. intros [i t] Hi. cbn. apply combine_seq_split in Hi. destruct Hi as [_ Hi]. eapply nth_error_In; eassumption. }
  destruct (jlfp_intro o1 m ded ts) as [ts1 E].
  - destruct Ho as [Hq _]. assumption.
  - assumption.
  - lra.
  - clear - H All Ht Hlat Ho Hl Hp Hu LL Hw. revert All. induction H as [|[i t] t2 l ts2 [[C1 [C2 [C3 _]]] C4] _ IH]; intros All; constructor.
    + cbn [fst snd]. inversion All as [|x y A1 A2]; subst. cbn [snd] in A1. rewrite Forall_forall in Hlat, Ht. destruct (Hlat t A1) as [B1 B2]. destruct (Ht t A1) as [B3 [B4 _]].
      split; [lra|]. split; [lra|]. assert (J := jlfp_cost_mono o1 o2 m ded ts i t Ho Hl Hp Hw B4 Hu).
      destruct C4 as [F1 F2]; [lra|lra|]. split; lra.
    + apply IH. inversion All; assumption.
  - exists ts1. split; [assumption|]. apply jlfp_done in E. destruct E as [_ E].
    clear - H E All Ht Ho Hl Hp Hu LL Hw. revert ts1 E All. induction H as [|[i t] t2 l ts2 [[C1 [C2 [C3 _]]] C4] _ IH]; intros ts1 E All; inversion E as [|p t1 x y E1 E2]; subst; constructor.
    + destruct E1 as [[D1 [D2 [D3 _]]] _]. inversion All as [|x z A1 A2]; subst. cbn [snd] in A1. rewrite Forall_forall in Ht. destruct (Ht t A1) as [B3 [B4 _]].
      unfold harder. rewrite C1, C2, C3, D1, D2, D3. split; [apply jlfp_cost_mono; assumption|]. split; lra.
    + apply IH; [assumption|]. inversion All; assumption.
Qed.

(** ** No overheads *)
Lemma zero_irq : forall q ded ts, 0 < q -> Forall (fun t => 0 < o_period t) ts -> irq_util (zero_overheads q) ded ts == 0 /\ irq_work (zero_overheads q) ded ts == 0.
Proof.
  intros q ded ts Hq Ht. assert (R : rel_util 0 ts == 0).
  { clear - Ht. induction Ht as [|t ts H _ IH]; [reflexivity|]. unfold rel_util in *. cbn [filter]. destruct (o_early t); cbn [negb]; [assumption|].
    cbn [map qsum fold_right]. unfold qsum in IH. rewrite IH. field. lra. }
  assert (U : irq_util (zero_overheads q) ded ts == 0).
  { unfold irq_util. cbn [zero_overheads tick quantum_length release]. destruct ded; [field; lra|]. rewrite R. field. lra. }
  split; [assumption|]. unfold irq_work. rewrite U. cbn [zero_overheads tick release release_latency]. destruct ded; ring.
Qed.

Lemma jlfp_zero : forall q m ded ts, 0 < q -> Forall (fun t => 0 < o_period t /\ 0 < o_deadline t /\ fits (o_cost t) (o_period t) (o_deadline t)) ts ->
  exists ts', jlfp_charge (Some (zero_overheads q)) m ded ts = Done ts' /\
  Forall2 (fun t t' => o_cost t' == o_cost t /\ o_period t' == o_period t /\ o_deadline t' == o_deadline t) ts ts'.
Proof.
  intros q m ded ts Hq Ht. assert (Hp : Forall (fun t => 0 < o_period t) ts) by (eapply Forall_impl; [|exact Ht]; cbv beta; intros ? HH; exact (proj1 HH)).
  destruct (zero_irq q ded ts Hq Hp) as [U W].
  assert (J : forall i t, jlfp_cost (zero_overheads q) m ded ts i t == o_cost t).
  { intros i t. unfold jlfp_cost. rewrite W. setoid_replace (1 - irq_util (zero_overheads q) ded ts) with 1 by (rewrite U; reflexivity).
    assert (P : cpmd_of (zero_overheads q) ts i == 0) by (unfold cpmd_of; destruct (nlargest2 ts) as [|[ja a] r]; [reflexivity|]; destruct (negb (Nat.eqb i ja)); [reflexivity|]; destruct r as [|[jb b] r]; reflexivity).
    rewrite P. unfold jlfp_fixed. cbn [zero_overheads schedule ctx_switch ipi_latency release]. destruct ded; [|destruct (1 <? m)%Z]; field. }
  destruct (jlfp_intro (zero_overheads q) m ded ts) as [ts' E]; [assumption|assumption|rewrite U; lra| |].
  - apply Forall_forall. intros [i t] Hi. cbn [fst snd]. apply combine_seq_split in Hi. destruct Hi as [_ Hi]. apply nth_error_In in Hi.
    rewrite Forall_forall in Ht. destruct (Ht t Hi) as [A [B [C D]]]. cbn [zero_overheads release_latency]. split; [assumption|]. split; [assumption|].
    split; rewrite J; lra.
  - exists ts'. split; [assumption|]. apply jlfp_done in E. destruct E as [_ E].
    assert (G : Forall2 (fun (p : nat * otask) t' => o_cost t' == o_cost (snd p) /\ o_period t' == o_period (snd p) /\ o_deadline t' == o_deadline (snd p)) (combine (seq 0 (length ts)) ts) ts').
    { eapply F2_impl; [|exact E]. intros [i t] t' [[C1 [C2 [C3 _]]] _]. cbn [snd]. rewrite C1, C2, C3, J. cbn [zero_overheads release_latency]. split; [reflexivity|]. split; ring. }
    apply (Forall2_combine_seq _ _ (fun _ t t' => o_cost t' == o_cost t /\ o_period t' == o_period t /\ o_deadline t' == o_deadline t)) in G.
    eapply F2_impl; [|exact G]. intros t t' [_ X]. exact X.
Qed.

(** ** Making parameters integral *)
Lemma ceil_bounds : forall x, x <= inject_Z (Qceiling x) /\ inject_Z (Qceiling x) < x + 1.
Proof. intros x. split; [apply Qle_ceiling|]. pose proof (Qceiling_lt x) as H. unfold Z.sub in H. rewrite inject_Z_plus in H. change (inject_Z (-(1))) with (-(1)) in H. lra. Qed.
Lemma floor_bounds : forall x, inject_Z (Qfloor x) <= x /\ x < inject_Z (Qfloor x) + 1.
Proof. intros x. split; [apply Qfloor_le|]. pose proof (Qlt_floor x) as H. rewrite inject_Z_plus in H. exact H. Qed.

Lemma jlfp_quantize_done : forall ts ts', jlfp_quantize ts = Done ts' ->
  Forall2 (fun t t' => rounded_up 1 (o_cost t) (o_cost t') /\ rounded_down 1 (o_period t) (o_period t') /\ rounded_down 1 (o_deadline t) (o_deadline t') /\
    (0 <= o_period t -> 0 <= o_deadline t -> 1 <= o_period t' /\ 1 <= o_deadline t' /\ fits (o_cost t') (o_period t') (o_deadline t'))) ts ts'.
Proof.
  intros ts ts' H. apply charge_all_done in H. eapply F2_impl; [|exact H]. clear. intros t t' H. cbv beta zeta in H.
  destruct (Qeq_bool (qmin (inject_Z (Qfloor (o_period t))) (inject_Z (Qfloor (o_deadline t)))) 0) eqn:E; [discriminate|].
  pose proof (check_gt_fits _ _ _ _ _ _ H) as F. apply check_gt_done in H. destruct H as [-> [N _]]. cbn [o_cost o_period o_deadline].
  pose proof (ceil_bounds (o_cost t)) as [A1 A2]. pose proof (floor_bounds (o_period t)) as [B1 B2]. pose proof (floor_bounds (o_deadline t)) as [C1 C2].
  assert (M : forall z, multiple 1 (inject_Z z)) by (intros z; exists z; ring).
  split; [split; [apply M|split; assumption]|]. split; [split; [apply M|split; assumption]|]. split; [split; [apply M|split; assumption]|].
  intros P D. assert (Z1 : (0 <= Qfloor (o_period t))%Z) by (change 0%Z with (Qfloor 0); apply Qfloor_resp_le; assumption).
  assert (Z2 : (0 <= Qfloor (o_deadline t))%Z) by (change 0%Z with (Qfloor 0); apply Qfloor_resp_le; assumption).
  assert (Z3 : (Qfloor (o_period t) <> 0 /\ Qfloor (o_deadline t) <> 0)%Z).
  { split; intros Z; apply N; rewrite Z; unfold qmin; destruct (Qle_bool _ _) eqn:L; try reflexivity.
    - apply qle_bool_false in L. change 0 with (inject_Z 0) in L. rewrite <- Zlt_Qlt in L. lia.
    - apply Qle_bool_iff in L. apply Qle_antisym; [assumption|]. change 0 with (inject_Z 0). rewrite <- Zle_Qle. assumption. }
  assert (L1 : 1 <= inject_Z (Qfloor (o_period t))) by (change 1 with (inject_Z 1); rewrite <- Zle_Qle; lia).
  assert (L2 : 1 <= inject_Z (Qfloor (o_deadline t))) by (change 1 with (inject_Z 1); rewrite <- Zle_Qle; lia).
  split; [assumption|]. split; [assumption|]. apply F; lra.
Qed.
