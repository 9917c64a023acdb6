(** C36: the EDF simulator produces legal global EDF schedules and reports
    exactly what happens in them. *)
From Coq Require Import ZArith List Bool Lia Permutation.
From Verif Require Import Base SpecUni SpecQPA SpecGlobal SpecTardiness SpecSim ModelTasks ModelSim ProofGlobal ProofSim ProofSimSched.
Import ListNotations.
Open Scope Z_scope.

(** What the simulator assumes: a processor, a task, positive costs and periods. *)
Definition simulable (m : nat) (ts : taskset) : Prop :=
  (1 <= m)%nat /\ ts <> [] /\ Forall (fun t => 1 <= t_cost t /\ 1 <= t_period t) ts.

Lemma simulate_mono : forall A (cb : A -> completion -> A) aborted pick pre ts E f f' st a r, (f <= f')%nat ->
  simulate_until f pick pre ts cb aborted E st a = Some r -> simulate_until f' pick pre ts cb aborted E st a = Some r.
Proof.
  induction f as [|f IH]; intros f' st a r Hf H; [discriminate|]. destruct f' as [|f']; [lia|]. cbn [simulate_until] in *.
  destruct ((now st <=? E) && negb (aborted a)); [|exact H]. destruct (events (qs st)); [exact H|]. destruct (advance_time _ _ _ _ _) as [[st' log]|]; [|discriminate].
  apply IH; [lia|exact H].
Qed.

Section Result.
  Variables (ts : taskset) (pick : nat -> nat) (pre : bool) (m : nat) (E : Z).
  Hypothesis Hsim : simulable m ts.
  Hypothesis HE : 0 <= E.

  Let Hm : (1 <= m)%nat := proj1 Hsim.
  Let Hne : ts <> [] := proj1 (proj2 Hsim).
  Let Hts := proj2 (proj2 Hsim).
  Let es := map etask_of ts.
  Let s := sync_periodic es.
  Let S0 := sc ts pick pre m.
  Let log := log_upto ts pick pre m.
  Let time := tm ts pick pre m.

  Lemma periodic_result : forall A (cb : A -> completion -> A) aborted fuel a r, aborted a = false ->
    run_periodic_simulation fuel pick pre m ts cb aborted a E = Some r ->
    exists K, snd r = fold_left cb (log K) a /\ (E < time K \/ aborted (fold_left cb (log K) a) = true) /\
      (forall j, (j < K)%nat -> time j <= E /\ aborted (fold_left cb (log j) a) = false).
  Proof.
    intros A cb aborted fuel a r Ha H. destruct (simulate_periodic ts pick pre m Hts Hm Hne cb aborted E (fuel + (Z.to_nat E + 3)) a HE Ha ltac:(lia)) as [K [K1 [K2 K3]]].
    exists K. unfold run_periodic_simulation in *. apply (simulate_mono _ _ _ _ _ _ _ _ (fuel + (Z.to_nat E + 3))) in H; [|lia]. rewrite H in K1. inversion K1; subst r. 
    split; [reflexivity|]. split; [exact K2|exact K3].
  Qed.

  Definition late (c : completion) : bool := c_deadline c <? c_time c.

  Lemma miss_fold : forall l a, fold_left miss_cb l a = None -> a = None /\ forallb (fun c => negb (late c)) l = true.
  Proof.
    induction l as [|c l IH]; intros a H; [split; [exact H|reflexivity]|]. cbn [fold_left] in H. destruct (IH _ H) as [I1 I2]. unfold miss_cb in I1. cbn [forallb]. unfold late at 1.
    destruct (c_deadline c <? c_time c); [discriminate|]. split; [exact I1|exact I2].
  Qed.

  Lemma miss_fold_some : forall l a d t, fold_left miss_cb l a = Some (d, t) -> a = Some (d, t) \/ exists c, In c l /\ late c = true /\ c_deadline c = d /\ c_time c = t.
  Proof.
    induction l as [|c l IH]; intros a d t H; [left; exact H|]. cbn [fold_left] in H. destruct (IH _ _ _ H) as [I|[c' [I1 I2]]]; [|right; exists c'; split; [right; exact I1|exact I2]].
    unfold miss_cb in I. destruct (c_deadline c <? c_time c) eqn:El; [|left; exact I]. inversion I; subst. right. exists c. split; [left; reflexivity|]. split; [exact El|]. split; reflexivity.
  Qed.

  Lemma fields : forall K c, In c (log K) -> exists k, (k < K)%nat /\ c_time c = time (S k) /\ c_deadline c = due es s (fst (jobof c)) /\ (c_task c < length ts)%nat.
  Proof. intros K c H. exact (log_fields ts pick pre m Hts Hm Hne K c H). Qed.

  Lemma finished : forall K, lists_finished (length ts) s S0 (time K) (map jobof (log K)).
  Proof. intros K. exact (log_finished ts pick pre m Hts Hm Hne K). Qed.

  Lemma tpos : forall K, 0 <= time K. Proof. intros K. exact (tm_nonneg ts pick pre m Hts Hm Hne K). Qed.

  Lemma in_finished : forall K c, In c (log K) -> finishes_at s S0 (fst (jobof c)) (Z.to_nat (c_time c)) /\ (fst (fst (jobof c)) < length ts)%nat.
  Proof.
    intros K c Hc. destruct (finished K) as [_ H]. destruct (proj1 (H (fst (jobof c)) (snd (jobof c)))) as [H1 [H2 _]]; [|split; assumption].
    rewrite <- surjective_pairing. apply in_map. exact Hc.
  Qed.

  (** a miss at the end of the search is the first one *)
  Lemma miss_result : forall fuel r d t, run_periodic_simulation fuel pick pre m ts miss_cb missed None E = Some (r, Some (d, t)) ->
    exists j, (fst j < length ts)%nat /\ finishes_at s S0 j (Z.to_nat t) /\ due es s j = d /\ d < t /\ 0 <= t /\
      (forall j' t', (fst j' < length ts)%nat -> finishes_at s S0 j' t' -> due es s j' < Z.of_nat t' -> t <= Z.of_nat t') /\
      (exists t0, t0 <= E /\ t0 < t /\ forall j' t', (fst j' < length ts)%nat -> finishes_at s S0 j' t' -> ~ t0 < Z.of_nat t' < t).
  Proof.
    intros fuel r d t H. destruct (periodic_result _ miss_cb missed fuel None _ eq_refl H) as [K [K1 [K2 K3]]]. cbn [snd] in K1. symmetry in K1.
    destruct (miss_fold_some _ _ _ _ K1) as [A|[c [Hc [Hl [Ed Et]]]]]; [discriminate|].
    assert (HK : (0 < K)%nat) by (destruct K; [destruct Hc|lia]).
    destruct (K3 (pred K) ltac:(lia)) as [T1 T2]. assert (Hnone : fold_left miss_cb (log (pred K)) None = None) by (destruct (fold_left miss_cb (log (pred K)) None); [discriminate|reflexivity]).
    destruct (miss_fold _ _ Hnone) as [_ Hall]. rewrite forallb_forall in Hall.
    destruct (fields K c Hc) as [k [Hk [F1 [F2 F3]]]].
    assert (Hlog : log K = log (pred K) ++ steplog ts pick pre m (pred K)).
    { unfold log, log_upto. replace K with (S (pred K)) at 1 by lia. rewrite seq_S, flat_map_app. cbn [flat_map plus]. rewrite app_nil_r. reflexivity. }
    assert (Ek : S k = K).
    { destruct (Nat.eq_dec (S k) K) as [|N]; [assumption|]. exfalso. rewrite Hlog in Hc. apply in_app_or in Hc. destruct Hc as [Hc|Hc].
      - specialize (Hall c Hc). rewrite Hl in Hall. discriminate.
      - destruct (run_step ts pick pre m Hts Hm Hne (pred K)) as [_ [_ [_ [_ [_ [El _]]]]]]. rewrite El in Hc. apply in_map_iff in Hc. destruct Hc as [i [<- _]]. cbn [c_time] in F1.
        pose proof (tm_mono ts pick pre m Hts Hm Hne (S k) (S (pred K)) ltac:(lia)). unfold time in F1. lia. }
    destruct (in_finished K c Hc) as [G1 G2]. exists (fst (jobof c)). rewrite Et in G1. split; [exact G2|]. split; [exact G1|]. split; [rewrite <- F2; exact Ed|].
    unfold late in Hl. apply Z.ltb_lt in Hl. rewrite Ed, Et in Hl. split; [exact Hl|]. assert (EtK : t = time K) by (rewrite <- Et, F1, Ek; reflexivity).
    split; [rewrite EtK; apply tpos|].
    assert (Hprev : forall j' t', (fst j' < length ts)%nat -> finishes_at s S0 j' t' -> Z.of_nat t' < t -> In (j', t') (map jobof (log (pred K)))).
    { intros j' t' H1 H2 H3. assert (G : In (j', t') (map jobof (log K))) by (apply (proj2 (finished K)); split; [exact H1|]; split; [exact H2|]; lia).
      rewrite Hlog, map_app in G. apply in_app_or in G. destruct G as [G|G]; [exact G|]. exfalso.
      destruct (run_step ts pick pre m Hts Hm Hne (pred K)) as [_ [_ [_ [_ [_ [El _]]]]]]. rewrite El, map_map in G. apply in_map_iff in G. destruct G as [i [Ei _]]. unfold jobof in Ei. cbn [c_task c_seqno c_time] in Ei.
      inversion Ei. subst j' t'. replace (S (pred K)) with K in H3 by lia. fold time in H3. rewrite Z2Nat.id in H3 by apply tpos. lia. }
    split.
    - intros j' t' H1 H2 H3. destruct (Z.le_gt_cases t (Z.of_nat t')) as [L|L]; [exact L|]. exfalso.
      pose proof (Hprev j' t' H1 H2 L) as G. apply in_map_iff in G. destruct G as [c' [Ec' Hc']]. specialize (Hall c' Hc'). 
      destruct (fields _ _ Hc') as [k' [_ [F1' [F2' _]]]]. rewrite Ec' in F2'. cbn [fst] in F2'. unfold late in Hall. rewrite F2' in Hall.
      assert (Et' : Z.of_nat t' = c_time c') by (pose proof (f_equal snd Ec') as X; cbn [jobof snd] in X; rewrite <- X, Z2Nat.id; [reflexivity|rewrite F1'; apply tpos]).
      rewrite <- Et' in Hall. apply negb_true_iff in Hall. apply Z.ltb_ge in Hall. lia.
    - exists (time (pred K)). split; [exact T1|]. split; [rewrite EtK; apply (tm_mono ts pick pre m Hts Hm Hne); lia|].
      intros j' t' H1 H2 [H3 H4]. pose proof (Hprev j' t' H1 H2 H4) as G. apply (proj2 (finished (pred K))) in G. lia.
  Qed.

  Lemma clean_result : forall fuel r, run_periodic_simulation fuel pick pre m ts miss_cb missed None E = Some (r, None) ->
    forall j t, (fst j < length ts)%nat -> finishes_at s S0 j t -> Z.of_nat t <= E -> Z.of_nat t <= due es s j.
  Proof.
    intros fuel r H j t Hj Hf Ht. destruct (periodic_result _ miss_cb missed fuel None _ eq_refl H) as [K [K1 [K2 K3]]]. cbn [snd] in K1. symmetry in K1.
    rewrite K1 in K2. destruct K2 as [K2|K2]; [|discriminate]. destruct (miss_fold _ _ K1) as [_ Hall]. rewrite forallb_forall in Hall.
    assert (G : In (j, t) (map jobof (log K))) by (apply (proj2 (finished K)); split; [exact Hj|]; split; [exact Hf|lia]).
    apply in_map_iff in G. destruct G as [c [Ec Hc]]. specialize (Hall c Hc). destruct (fields _ _ Hc) as [k [_ [F1 [F2 _]]]]. rewrite Ec in F2. cbn [fst] in F2.
    unfold late in Hall. rewrite F2 in Hall. assert (Et' : Z.of_nat t = c_time c) by (pose proof (f_equal snd Ec) as X; cbn [jobof snd] in X; rewrite <- X, Z2Nat.id; [reflexivity|rewrite F1; apply tpos]).
    rewrite <- Et' in Hall. apply negb_true_iff in Hall. apply Z.ltb_ge in Hall. lia.
  Qed.

  Lemma edf_schedule : global_edf pre es m s S0.
  Proof. exact (sc_edf ts pick pre m Hts Hm Hne). Qed.
End Result.

(** ** The verdict *)

(** A reported miss is real: the simulated schedule is a global EDF schedule of
    the synchronous periodic job sequence, and in it some job completes after
    its deadline. *)
Theorem C36_miss_sound : forall fuel pick m ts E pre, simulable m ts -> 0 <= E ->
  edf_misses_deadline fuel pick m ts E pre = Some true ->
  exists sc j t, let es := map etask_of ts in let s := sync_periodic es in
    global_edf pre es m s sc /\ (fst j < length ts)%nat /\ finishes_at s sc j t /\ due es s j < Z.of_nat t /\
    (forall j' t', (fst j' < length ts)%nat -> finishes_at s sc j' t' -> due es s j' < Z.of_nat t' -> (t <= t')%nat) /\
    (exists t0, t0 <= E /\ t0 < Z.of_nat t /\ forall j' t', (fst j' < length ts)%nat -> finishes_at s sc j' t' -> ~ (t0 < Z.of_nat t' < Z.of_nat t)).
Proof.
  intros fuel pick m ts E pre Hs HE H. unfold edf_misses_deadline in H. destruct (run_periodic_simulation _ _ _ _ _ _ _ _ _) as [[r [[d t]|]]|] eqn:Er; try discriminate.
  destruct (miss_result ts pick pre m E Hs HE _ _ _ _ Er) as [j [H1 [H2 [H3 [H4 [H5 [H6 H7]]]]]]]. exists (sc ts pick pre m), j, (Z.to_nat t). cbv zeta.
  rewrite Z2Nat.id by exact H5. split; [apply edf_schedule; exact Hs|]. split; [exact H1|]. split; [exact H2|]. split; [lia|]. split; [|exact H7].
  intros j' t' G1 G2 G3. specialize (H6 j' t' G1 G2 G3). lia.
Qed.
Print Assumptions C36_miss_sound.

(** Without a reported miss, no job that completes by the end of the simulation is late. *)
Theorem C36_clean_sound : forall fuel pick m ts E pre, simulable m ts -> 0 <= E ->
  edf_misses_deadline fuel pick m ts E pre = Some false ->
  exists sc, let es := map etask_of ts in let s := sync_periodic es in
    global_edf pre es m s sc /\
    forall j t, (fst j < length ts)%nat -> finishes_at s sc j t -> Z.of_nat t <= E -> Z.of_nat t <= due es s j.
Proof.
  intros fuel pick m ts E pre Hs HE H. unfold edf_misses_deadline in H. destruct (run_periodic_simulation _ _ _ _ _ _ _ _ _) as [[r [[d t]|]]|] eqn:Er; try discriminate.
  exists (sc ts pick pre m). cbv zeta. split; [apply edf_schedule; exact Hs|]. apply (clean_result ts pick pre m E Hs HE _ _ Er).
Qed.
Print Assumptions C36_clean_sound.

(** A miss under preemptive EDF refutes schedulability of the sporadic tasks. *)
Theorem C36_refutes : forall fuel pick m ts E, simulable m ts -> 0 <= E ->
  edf_misses_deadline fuel pick m ts E true = Some true -> ~ gedf_schedulable (map etask_of ts) m.
Proof.
  intros fuel pick m ts E Hs HE H Hg. destruct (C36_miss_sound _ _ _ _ _ _ Hs HE H) as [sc [j [t [[V G] [H1 [[F1 F2] [H3 _]]]]]]]. cbv zeta in *.
  destruct (nth_error ts (fst j)) as [tk|] eqn:Et; [|apply nth_error_None in Et; lia].
  assert (Ee : nth_error (map etask_of ts) (fst j) = Some (etask_of tk)) by (rewrite nth_error_map, Et; reflexivity).
  destruct (Hg (sync_periodic (map etask_of ts)) sc) with (j := j) (e := etask_of tk) as [q [Q1 Q2]]; [|exact V|exact G|exact Ee|].
  - intros i p Ep k. rewrite map_map, nth_error_map in Ep. destruct (nth_error ts i) as [u|] eqn:Eu; [|discriminate]. inversion Ep; subst p. cbn [pr_period pr_jitter pr_cost etask_of e_cost e_period].
    destruct Hs as [_ [_ Hw]]. rewrite Forall_forall in Hw. destruct (Hw u (nth_error_In _ _ Eu)) as [W1 W2].
    unfold sync_periodic. cbn [arr rel cst]. rewrite (nth_error_nth (map etask_of ts) i (ETask 0 1 0) (x := etask_of u)) by (rewrite nth_error_map, Eu; reflexivity). cbn [etask_of e_cost e_period].
    rewrite !Nat2Z.inj_mul, !Z2Nat.id by lia. nia.
  - assert (q < t)%nat; [|apply (F2 q); assumption]. unfold due in H3. rewrite (nth_error_nth _ _ (ETask 0 1 0) Ee) in H3. lia.
Qed.
Print Assumptions C36_refutes.

(** The simulation ends. *)
Theorem C36_total : forall fuel pick m ts E pre, simulable m ts -> 0 <= E -> (Z.to_nat E + 2 < fuel)%nat ->
  edf_misses_deadline fuel pick m ts E pre <> None /\ edf_first_violation fuel pick m ts E pre <> None /\ edf_observe_tardiness fuel pick m ts E pre <> None.
Proof.
  intros fuel pick m ts E pre [Hm [Hne Hts]] HE Hf.
  destruct (simulate_periodic ts pick pre m Hts Hm Hne miss_cb missed E fuel None HE eq_refl Hf) as [K [K1 _]].
  destruct (simulate_periodic ts pick pre m Hts Hm Hne tardiness_cb (fun _ => false) E fuel (Stats 0 0 0 0 0) HE eq_refl Hf) as [K' [K1' _]].
  unfold edf_misses_deadline, edf_first_violation, edf_observe_tardiness. rewrite K1, K1'. split; [discriminate|]. split; [|discriminate].
  destruct (fold_left miss_cb _ None) as [[d t]|]; discriminate.
Qed.
Print Assumptions C36_total.

(** The verdict agrees with the analyses: no accepted task set is rejected by simulation. *)
Theorem C36_accepts : forall fuel pick m ts E, simulable m ts -> 0 <= E -> (Z.to_nat E + 2 < fuel)%nat ->
  gedf_schedulable (map etask_of ts) m -> edf_misses_deadline fuel pick m ts E true = Some false.
Proof.
  intros fuel pick m ts E Hs HE Hf Hg. destruct (C36_total fuel pick m ts E true Hs HE Hf) as [H _].
  destruct (edf_misses_deadline fuel pick m ts E true) as [[|]|] eqn:Em; [|reflexivity|contradiction]. exfalso. exact (C36_refutes _ _ _ _ _ Hs HE Em Hg).
Qed.
Print Assumptions C36_accepts.

(** ** The time of the first violation *)
Theorem C36_first_violation : forall fuel pick m ts E pre v, simulable m ts -> 0 <= E ->
  edf_first_violation fuel pick m ts E pre = Some v ->
  exists sc, let es := map etask_of ts in let s := sync_periodic es in
    global_edf pre es m s sc /\
    ((v = 0 /\ forall j t, (fst j < length ts)%nat -> finishes_at s sc j t -> Z.of_nat t <= E -> Z.of_nat t <= due es s j) \/
     exists j t, (fst j < length ts)%nat /\ v = due es s j /\ finishes_at s sc j t /\ v < Z.of_nat t /\
       forall j' t', (fst j' < length ts)%nat -> finishes_at s sc j' t' -> due es s j' < Z.of_nat t' -> (t <= t')%nat).
Proof.
  intros fuel pick m ts E pre v Hs HE H. unfold edf_first_violation in H. exists (sc ts pick pre m). cbv zeta. split; [apply edf_schedule; exact Hs|].
  destruct (run_periodic_simulation _ _ _ _ _ _ _ _ _) as [[r [[d t]|]]|] eqn:Er; [| |discriminate]; inversion H; subst v.
  - right. destruct (miss_result ts pick pre m E Hs HE _ _ _ _ Er) as [j [H1 [H2 [H3 [H4 [H5 [H6 _]]]]]]]. exists j, (Z.to_nat t).
    split; [exact H1|]. split; [symmetry; exact H3|]. split; [exact H2|]. split; [rewrite Z2Nat.id by exact H5; exact H4|].
    intros j' t' G1 G2 G3. specialize (H6 j' t' G1 G2 G3). lia.
  - left. split; [reflexivity|]. apply (clean_result ts pick pre m E Hs HE _ _ Er).
Qed.
Print Assumptions C36_first_violation.

(** ** Observed tardiness *)
Definition zsum (l : list Z) : Z := fold_right Z.add 0 l.

Lemma tardiness_fold : forall l st, (forall c, In c l -> 0 <= c_time c) ->
  let f c := Z.max 0 (c_time c - c_deadline c) in
  let st' := fold_left tardiness_cb l st in
  num_tardy_jobs st' = num_tardy_jobs st + Z.of_nat (length (filter (fun c => 0 <? f c) l)) /\
  num_ok_jobs st' = num_ok_jobs st + Z.of_nat (length (filter (fun c => f c =? 0) l)) /\
  total_tardiness st' = total_tardiness st + zsum (map f l) /\
  (0 <= max_tardiness st -> max_tardiness st' = fold_right Z.max (max_tardiness st) (map f l)).
Proof.
  induction l as [|c l IH]; intros st Hp f st'.
  - cbn. subst st'. cbn. repeat split; lia.
  - specialize (IH (tardiness_cb st c) (fun c' H => Hp c' (or_intror H))). cbv zeta in IH. fold f in IH. subst st'. cbn [fold_left]. destruct IH as [I1 [I2 [I3 I4]]]. rewrite I1, I2, I3.
    cbn [filter map zsum fold_right]. fold (zsum (map f l)). unfold tardiness_cb in *. change (f c) with (Z.max 0 (c_time c - c_deadline c)) in *.
    assert (Hmx : forall a, fold_right Z.max a (map f l) = Z.max a (fold_right Z.max 0 (map f l)) \/ a < 0).
    { clear. intros a. destruct (Z.le_gt_cases 0 a) as [H|H]; [left|right; exact H]. induction l as [|c l IH]; cbn [map fold_right]; [lia|]. rewrite IH. lia. }
    destruct (c_deadline c <? c_time c) eqn:El.
    + apply Z.ltb_lt in El. destruct (Z.ltb_spec 0 (Z.max 0 (c_time c - c_deadline c))); [|lia]. destruct (Z.eqb_spec (Z.max 0 (c_time c - c_deadline c)) 0); [lia|].
      cbn [num_tardy_jobs num_ok_jobs total_tardiness max_tardiness length] in *. repeat split; try lia. intros H0. rewrite I4 by lia.
      destruct (Hmx (Z.max (c_time c - c_deadline c) (max_tardiness st))); destruct (Hmx (max_tardiness st)); lia.
    + apply Z.ltb_ge in El. destruct (Z.ltb_spec 0 (Z.max 0 (c_time c - c_deadline c))); [lia|]. destruct (Z.eqb_spec (Z.max 0 (c_time c - c_deadline c)) 0); [|lia].
      cbn [num_tardy_jobs num_ok_jobs total_tardiness max_tardiness length] in *. repeat split; try lia. intros H0. rewrite I4 by lia.
      destruct (Hmx (max_tardiness st)); lia.
Qed.

Lemma first_fold : forall l st, (forall c, In c l -> c_deadline c <> 0) ->
  (first_miss (fold_left tardiness_cb l st) = first_miss st /\ (first_miss st <> 0 \/ forallb (fun c => negb (late c)) l = true)) \/
  (first_miss st = 0 /\ exists l1 c l2, l = l1 ++ c :: l2 /\ late c = true /\ forallb (fun c => negb (late c)) l1 = true /\ first_miss (fold_left tardiness_cb l st) = c_deadline c).
Proof.
  induction l as [|c l IH]; intros st Hd; [left; split; [reflexivity|right; reflexivity]|]. cbn [fold_left].
  specialize (IH (tardiness_cb st c) (fun c' H => Hd c' (or_intror H))). 
  assert (Ef : first_miss (tardiness_cb st c) = if late c then if first_miss st =? 0 then c_deadline c else first_miss st else first_miss st) by (unfold tardiness_cb, late; destruct (c_deadline c <? c_time c); reflexivity).
  rewrite Ef in IH. assert (Hc := Hd c (or_introl eq_refl)). cbn [forallb]. destruct (late c) eqn:El.
  - destruct (first_miss st =? 0) eqn:E0.
    + apply Z.eqb_eq in E0. right. split; [exact E0|]. destruct IH as [[I1 _]|[I1 _]]; [|contradiction]. exists [], c, l. split; [reflexivity|]. split; [exact El|]. split; [reflexivity|exact I1].
    + apply Z.eqb_neq in E0. destruct IH as [[I1 _]|[I1 _]]; [|contradiction]. left. split; [exact I1|left; exact E0].
  - destruct IH as [[I1 I2]|[I1 [l1 [c' [l2 [J1 [J2 [J3 J4]]]]]]]].
    + left. split; [exact I1|]. destruct I2 as [I2|I2]; [left; exact I2|right; cbn [negb andb]; exact I2].
    + right. split; [exact I1|]. exists (c :: l1), c', l2. rewrite J1. split; [reflexivity|]. split; [exact J2|]. split; [cbn [forallb]; rewrite El; cbn [negb andb]; exact J3|]. rewrite <- J1. exact J4.
Qed.

Lemma app_cut : forall A (l l' l1 : list A) c l2, l ++ l' = l1 ++ c :: l2 ->
  (exists l3, l = l1 ++ c :: l3 /\ l2 = l3 ++ l') \/ (forall x, In x (c :: l2) -> In x l').
Proof.
  induction l as [|a l IH]; intros l' l1 c l2 E.
  - right. cbn [app] in E. subst l'. intros x Hx. apply in_or_app. right. exact Hx.
  - destruct l1 as [|b l1]; cbn [app] in E; injection E as E1 E2.
    + left. exists l. subst. split; reflexivity.
    + subst b. destruct (IH _ _ _ _ E2) as [[l3 [-> ->]]|H]; [left; exists l3; split; reflexivity|right; exact H].
Qed.

Lemma filter_map_len : forall A B (g : A -> B) (p : B -> bool) l, length (filter p (map g l)) = length (filter (fun x => p (g x)) l).
Proof. intros A B g p l. induction l as [|a l IH]; [reflexivity|]. cbn [map filter]. destruct (p (g a)); cbn [length]; rewrite IH; reflexivity. Qed.

(** The statistics describe the jobs that complete by the first event T after
    the end E of the simulation: all that complete by E, and those that complete
    exactly at T. *)
Theorem C36_tardiness : forall fuel pick m ts E pre st, simulable m ts -> 0 <= E ->
  edf_observe_tardiness fuel pick m ts E pre = Some st ->
  exists sc T l, let es := map etask_of ts in let s := sync_periodic es in let tard := tardiness_of es s in
    global_edf pre es m s sc /\ E < T /\ lists_finished (length ts) s sc T l /\
    (forall j t, In (j, t) l -> Z.of_nat t <= E \/ Z.of_nat t = T) /\
    num_tardy_jobs st = Z.of_nat (length (filter (fun p => 0 <? tard p) l)) /\
    num_ok_jobs st = Z.of_nat (length (filter (fun p => tard p =? 0) l)) /\
    total_tardiness st = zsum (map tard l) /\
    (max_tardiness st = 0 \/ exists p, In p l /\ tard p = max_tardiness st) /\ (forall p, In p l -> tard p <= max_tardiness st) /\
    (Forall (fun t => 1 <= t_deadline t) ts ->
      (first_miss st = 0 /\ forall p, In p l -> tard p = 0) \/
      (exists j t, In (j, t) l /\ first_miss st = due es s j /\ 0 < tard (j, t) /\ forall j' t', In (j', t') l -> 0 < tard (j', t') -> (t <= t')%nat)).
Proof.
  intros fuel pick m ts E pre st Hs HE H. unfold edf_observe_tardiness in H. destruct (run_periodic_simulation _ _ _ _ _ _ _ _ _) as [[r a]|] eqn:Er; [|discriminate]. inversion H; subst a. clear H.
  destruct (periodic_result ts pick pre m E Hs HE _ tardiness_cb (fun _ => false) fuel _ _ eq_refl Er) as [K [K1 [K2 K3]]]. cbn [snd] in K1. destruct K2 as [K2|K2]; [|discriminate].
  set (L := log_upto ts pick pre m K) in *. set (es := map etask_of ts). set (s := sync_periodic es). set (tard := tardiness_of es s).
  exists (sc ts pick pre m), (tm ts pick pre m K), (map jobof L). cbv zeta. fold es. fold s. fold tard.
  pose proof (fields ts pick pre m Hs K) as HF. fold L in HF. fold es in HF. fold s in HF.
  assert (Hpos : forall c, In c L -> 0 <= c_time c) by (intros c Hc; destruct (HF c Hc) as [k [_ [-> _]]]; apply (tpos ts pick pre m Hs)).
  assert (Htd : forall c, In c L -> tard (jobof c) = Z.max 0 (c_time c - c_deadline c)).
  { intros c Hc. destruct (HF c Hc) as [k [_ [_ [F2 _]]]]. unfold tard, tardiness_of. rewrite F2. cbn [jobof snd]. rewrite Z2Nat.id by (apply Hpos; exact Hc). reflexivity. }
  assert (Hmap : map tard (map jobof L) = map (fun c => Z.max 0 (c_time c - c_deadline c)) L) by (rewrite map_map; apply map_ext_in; exact Htd).
  destruct (tardiness_fold L (Stats 0 0 0 0 0) Hpos) as [T1 [T2 [T3 T4]]]. cbv zeta in T1, T2, T3, T4. rewrite <- K1 in T1, T2, T3, T4. cbn [num_tardy_jobs num_ok_jobs total_tardiness max_tardiness] in *.
  specialize (T4 ltac:(lia)). rewrite <- Hmap in T3, T4.
  split; [apply edf_schedule; exact Hs|]. split; [exact K2|]. split; [apply (finished ts pick pre m Hs)|]. split.
  { intros j t Hj. apply in_map_iff in Hj. destruct Hj as [c [Ec Hc]]. destruct (HF c Hc) as [k [Hk [F1 _]]].
    assert (Et : Z.of_nat t = tm ts pick pre m (S k)) by (pose proof (f_equal snd Ec) as X; cbn [jobof snd] in X; rewrite <- X, Z2Nat.id by (apply Hpos; exact Hc); exact F1).
    rewrite Et. destruct (Nat.eq_dec (S k) K) as [->|N]; [right; reflexivity|left]. apply (K3 (S k)). lia. }
  split; [rewrite T1, filter_map_len, Z.add_0_l; f_equal; f_equal; apply filter_ext_in; intros c Hc; rewrite Htd by exact Hc; reflexivity|].
  split; [rewrite T2, filter_map_len, Z.add_0_l; f_equal; f_equal; apply filter_ext_in; intros c Hc; rewrite Htd by exact Hc; reflexivity|].
  split; [rewrite T3; reflexivity|]. split; [|split].
  - rewrite T4. clear. generalize (map jobof L) as l. induction l as [|p l IH]; [left; reflexivity|]. cbn [map fold_right].
    destruct (Z.max_spec (tard p) (fold_right Z.max 0 (map tard l))) as [[_ E]|[_ E]]; rewrite E.
    + destruct IH as [IH|[q [H1 H2]]]; [left; exact IH|right; exists q; split; [right; exact H1|exact H2]].
    + right. exists p. split; [left; reflexivity|reflexivity].
  - rewrite T4. clear. generalize (map jobof L) as l. induction l as [|p l IH]; intros q Hq; [destruct Hq|]. cbn [map fold_right]. destruct Hq as [<-|Hq]; [lia|]. specialize (IH q Hq). lia.
  - intros Hd. assert (Hd0 : forall c, In c L -> c_deadline c <> 0).
    { intros c Hc. destruct (HF c Hc) as [k [_ [_ [-> F3]]]]. unfold due. cbn [jobof fst snd]. unfold es. rewrite (nth_indep _ _ (etask_of (Task 1 1 1))) by (rewrite map_length; exact F3).
      rewrite map_nth. cbn [etask_of e_deadline]. rewrite Forall_forall in Hd. specialize (Hd _ (nth_In ts (Task 1 1 1) F3)). lia. }
    destruct (first_fold L (Stats 0 0 0 0 0) Hd0) as [[I1 I2]|[_ [l1 [c [l2 [I1 [I2 [I3 I4]]]]]]]]; rewrite <- K1 in *; cbn [first_miss] in *.
    + left. split; [exact I1|]. destruct I2 as [I2|I2]; [contradiction|]. rewrite forallb_forall in I2. intros p Hp. apply in_map_iff in Hp. destruct Hp as [c [<- Hc]]. rewrite Htd by exact Hc.
      specialize (I2 c Hc). unfold late in I2. apply negb_true_iff in I2. apply Z.ltb_ge in I2. lia.
    + right. assert (Hc : In c L) by (rewrite I1; apply in_or_app; right; left; reflexivity). exists (fst (jobof c)), (snd (jobof c)).
      rewrite <- surjective_pairing. split; [apply in_map; exact Hc|]. split; [destruct (HF c Hc) as [k [_ [_ [F2 _]]]]; rewrite <- F2; exact I4|].
      unfold late in I2. apply Z.ltb_lt in I2. split; [rewrite Htd by exact Hc; lia|]. intros j' t' Hj' Ht'. apply in_map_iff in Hj'. destruct Hj' as [c' [Ec' Hc']]. rewrite <- Ec', Htd in Ht' by exact Hc'.
      assert (G : c_time c <= c_time c').
      { assert (Hord : forall K l1 c l2, log_upto ts pick pre m K = l1 ++ c :: l2 -> forall c', In c' (c :: l2) -> c_time c <= c_time c').
        { destruct Hs as [Hm [Hne Hts]]. clear - Hm Hne Hts. intros K. assert (Hst : forall k c, In c (steplog ts pick pre m k) -> c_time c = tm ts pick pre m (S k)).
          { intros k c Hc. destruct (run_step ts pick pre m Hts Hm Hne k) as [_ [_ [_ [_ [_ [El _]]]]]]. rewrite El in Hc. apply in_map_iff in Hc. destruct Hc as [i [<- _]]. reflexivity. }
          induction K as [|K IH]; intros l1 c l2 E c' Hc'; [destruct l1; discriminate|].
          unfold log_upto in E. rewrite seq_S, flat_map_app in E. cbn [flat_map plus] in E. rewrite app_nil_r in E. fold (log_upto ts pick pre m K) in E.
          assert (Hall : forall x, In x (log_upto ts pick pre m K ++ steplog ts pick pre m K) -> c_time x <= tm ts pick pre m (S K)).
          { intros x Hx. apply in_app_or in Hx. destruct Hx as [Hx|Hx]; [|rewrite (Hst K x Hx); lia]. apply in_flat_map in Hx. destruct Hx as [k [Hk Hx]]. apply in_seq in Hk.
            rewrite (Hst k x Hx). pose proof (tm_mono ts pick pre m Hts Hm Hne (S k) (S K) ltac:(lia)). lia. }
          destruct (app_cut _ _ _ _ _ _ E) as [[l3 [E1 E2]]|Hin].
          - destruct Hc' as [<-|Hc']; [lia|]. rewrite E2 in Hc'. apply in_app_or in Hc'. destruct Hc' as [Hc'|Hc'].
            + apply (IH l1 c _ E1). right. exact Hc'.
            + rewrite (Hst K c' Hc'). apply Hall. rewrite E. apply in_or_app. right. left. reflexivity.
          - rewrite (Hst K c (Hin c (or_introl eq_refl))), (Hst K c' (Hin c' Hc')). lia. }
        apply (Hord K l1 c l2 I1). rewrite I1 in Hc'. apply in_app_or in Hc'. destruct Hc' as [Hc'|Hc']; [|exact Hc'].
        rewrite forallb_forall in I3. specialize (I3 c' Hc'). unfold late in I3. apply negb_true_iff in I3. apply Z.ltb_ge in I3. lia. }
      pose proof (f_equal snd Ec') as X. cbn [jobof snd] in X. cbn [jobof snd]. rewrite <- X. apply Z2Nat.inj_le; try apply Hpos; try exact G; assumption.
Qed.
Print Assumptions C36_tardiness.

(** ** Examples *)
Example C36_example :
  simulable 1 [Task 1 2 2; Task 10 20 20] /\ simulable 2 [Task 2 3 3; Task 2 3 3; Task 2 3 3] /\
  edf_misses_deadline 100 (fun n => n) 1 [Task 1 2 2; Task 10 20 20] 60 true = Some false /\
  edf_misses_deadline 100 (fun n => n) 1 [Task 1 2 2; Task 10 20 20] 60 false = Some true /\
  edf_first_violation 100 (fun n => n) 1 [Task 1 2 2; Task 10 20 20] 60 false = Some 4 /\
  edf_misses_deadline 100 (fun n => n) 2 [Task 2 3 3; Task 2 3 3; Task 2 3 3] 60 true = Some true /\
  edf_observe_tardiness 100 (fun n => n) 2 [Task 2 3 3; Task 2 3 3; Task 2 3 3] 60 true = Some (Stats 20 40 20 1 3).
Proof.
  split; [split; [lia|]; split; [discriminate|repeat constructor; cbn; lia]|]. split; [split; [lia|]; split; [discriminate|repeat constructor; cbn; lia]|].
  repeat split; vm_compute; reflexivity.
Qed.

(** A job that misses its deadline within the simulated interval but completes
    later may go unnoticed: without a reported miss, completion by E cannot be
    dropped from C36_clean_sound. *)
Theorem C36_unfinished_refuted : exists m ts E, simulable m ts /\
  edf_misses_deadline 100 (fun n => n) m ts E true = Some false /\
  forall sc, gvalid (length ts) m (sync_periodic (map etask_of ts)) sc ->
    exists j, (fst j < length ts)%nat /\ due (map etask_of ts) (sync_periodic (map etask_of ts)) j <= E /\
      ~ gcompleted (sync_periodic (map etask_of ts)) sc j (Z.to_nat (due (map etask_of ts) (sync_periodic (map etask_of ts)) j)).
Proof.
  exists 2%nat, [Task 10 20 2; Task 1 3 3], 2. split; [split; [lia|]; split; [discriminate|repeat constructor; cbn; lia]|]. split.
  - vm_compute. reflexivity.
  - intros sc V. exists (0%nat, 0%nat). split; [cbn; lia|]. split; [vm_compute; discriminate|]. unfold gcompleted. change (cst _ _ _) with 10%nat.
    change (Z.to_nat _) with 2%nat.
    assert (G : gservice sc (0%nat, 0%nat) 2 <= 2); [|intros H; lia].
    rewrite !gservice_step. change (gservice sc (0%nat, 0%nat) 0) with 0. destruct (gruns sc _ 0), (gruns sc _ 1); cbn; lia.
Qed.
Print Assumptions C36_unfinished_refuted.

(** The Python interface ignores its argument preemptive (schedcat/sim/edf.py:8-14):
    a task set that misses a deadline under non-preemptive EDF within the simulated
    interval is reported to have no counter example. *)
Theorem C36_python_preemptive_refuted : exists m ts E, simulable m ts /\
  no_counter_example 100 (fun n => n) m ts E false = Some true /\
  exists sc j t, global_edf false (map etask_of ts) m (sync_periodic (map etask_of ts)) sc /\ (fst j < length ts)%nat /\
    finishes_at (sync_periodic (map etask_of ts)) sc j t /\ due (map etask_of ts) (sync_periodic (map etask_of ts)) j < Z.of_nat t.
Proof.
  exists 1%nat, [Task 1 2 2; Task 10 20 20], 60. destruct C36_example as [H [_ [_ [H2 _]]]]. split; [exact H|]. split; [vm_compute; reflexivity|].
  destruct (C36_miss_sound 100 (fun n => n) 1 [Task 1 2 2; Task 10 20 20] 60 false H ltac:(lia) H2) as [sc [j [t [G1 [G2 [G3 [G4 _]]]]]]]. exists sc, j, t. split; [exact G1|]. split; [exact G2|]. split; [exact G3|exact G4].
Qed.
Print Assumptions C36_python_preemptive_refuted.
